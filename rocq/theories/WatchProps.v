(** C92: watching for NaN, infinities and shared pointers. *)
Require Import Coq.Lists.List Coq.Arith.Arith Coq.Bool.Bool Coq.ZArith.BinInt Coq.micromega.Lia.
Require Verif.BroadcastModel Verif.ValuesModel Verif.ValuesSpec Verif.ValuesProofs.
Require Import Verif.TapeModel Verif.TapeSpec Verif.TapeIntervals Verif.TapeProofs Verif.TapeProps Verif.WatchModel Verif.WatchSpec.
Import ListNotations.

Section Tape.
Context {V : Type}.
Variable blank : V.
Variable sem : nat -> list V -> option V.
Variable caddr : nat -> nat.
Variable ns : list tnode.
Variables chkNaN chkInf : V -> BroadcastModel.res bool.
Variable nid : nat -> nat.
Notation run := (runWatch blank sem caddr ns chkNaN chkInf nid).
Notation exe := (execAll blank sem caddr ns).
Notation puts := (puts blank sem caddr ns nid).
Notation shows := (shows blank sem caddr ns nid).
Notation breaks := (breaks blank sem caddr ns nid).
Notation clashes := (clashes blank sem caddr ns nid).

Lemma exe_cons : forall m ins is m1, exec blank sem caddr ns m ins = Some m1 ->
  exe m (ins :: is) = (let '(m2, k) := exe m1 is in (m2, S k)).
Proof. intros. cbn [execAll]. rewrite H. reflexivity. Qed.
Lemma reaches_S : forall m ins is m1 j m', exec blank sem caddr ns m ins = Some m1 ->
  (reaches blank sem caddr ns m (ins :: is) (S j) m' <-> reaches blank sem caddr ns m1 is j m').
Proof.
  intros m ins is m1 j m' H. unfold reaches. cbn [firstn length]. rewrite (exe_cons _ _ _ _ H).
  destruct (exe m1 (firstn j is)) as [m2 k]. split; intros [L Q]; (split; [lia|]); injection Q as -> Q; subst; f_equal; lia.
Qed.
Lemma puts_S : forall m ins is m1 j id a v, exec blank sem caddr ns m ins = Some m1 ->
  (puts m (ins :: is) (S j) id a v <-> puts m1 is j id a v).
Proof.
  intros m ins is m1 j id a v H. split; intros (i & rs & w & pre & un & m' & N & Q & W & P & R & G);
    exists i, rs, w, pre, un, m'; (split; [exact N|]); (split; [exact Q|]); (split; [exact W|]); (split; [exact P|]);
    (split; [|exact G]); apply (reaches_S m ins is m1); assumption.
Qed.
Lemma puts_0 : forall m ins is m1 id a v, exec blank sem caddr ns m ins = Some m1 ->
  (puts m (ins :: is) 0 id a v <->
   exists w, execTarget nid ins = Some (id, w) /\ 0 < w /\ 0 < id /\ regs m1 w = Some a /\ v = store m1 a).
Proof.
  intros m ins is m1 id a v H. split.
  - intros (i & rs & w & pre & un & m' & N & Q & W & P & R & G). cbn in N. injection N as ->.
    apply (reaches_S m _ is m1 0 m' H) in R. destruct R as [_ R]. cbn in R. injection R as <-.
    exists w. cbn. subst. auto.
  - intros (w & T & W & P & G). destruct ins as [| |i rs w' pre un| |]; try discriminate T. cbn in T. injection T as <- <-.
    exists i, rs, w', pre, un, m1. split; [reflexivity|]. split; [reflexivity|]. split; [exact W|]. split; [exact P|].
    split; [|exact G]. apply (reaches_S m _ is m1 0 m1 H). split; [lia|]. reflexivity.
Qed.
Lemma puts_none : forall m ins is j id a v, exec blank sem caddr ns m ins = None -> ~ puts m (ins :: is) j id a v.
Proof.
  intros m ins is j id a v H (i & rs & w & pre & un & m' & N & Q & W & P & [_ R] & G).
  cbn in R. rewrite H in R. discriminate R.
Qed.

(** [checkVal] in terms of [puts]. *)
Lemma check_ok : forall chk bad m ins is m1, exec blank sem caddr ns m ins = Some m1 ->
  match checkVal nid chk bad m1 ins with
  | None => ~ shows chk m (ins :: is) 0 /\ ~ breaks chk m (ins :: is) 0
  | Some ENoValue => (bad = ENoValue /\ shows chk m (ins :: is) 0) \/ (forall id a v, ~ puts m (ins :: is) 0 id a v)
  | Some EPanic => (bad = EPanic /\ shows chk m (ins :: is) 0) \/ (breaks chk m (ins :: is) 0 /\ ~ shows chk m (ins :: is) 0)
  | Some e => e = bad /\ shows chk m (ins :: is) 0
  end.
Proof.
  intros chk bad m ins is m1 H. unfold checkVal. destruct (execTarget nid ins) as [[id w]|] eqn:T.
  - destruct (Nat.ltb 0 w && Nat.ltb 0 id) eqn:L.
    + apply andb_true_iff in L. destruct L as [L1 L2]. apply Nat.ltb_lt in L1, L2.
      destruct (regs m1 w) as [a|] eqn:G.
      * assert (P : puts m (ins :: is) 0 id a (store m1 a)).
        { apply (puts_0 _ _ _ _ _ _ _ H). exists w. auto. }
        assert (U : forall id' a' v', puts m (ins :: is) 0 id' a' v' -> v' = store m1 a).
        { intros id' a' v' P'. apply (puts_0 _ _ _ _ _ _ _ H) in P'. destruct P' as (w' & T' & _ & _ & G' & ->). congruence. }
        destruct (chk (store m1 a)) as [[|]| |] eqn:C.
        -- assert (Sh : shows chk m (ins :: is) 0) by (exists id, a, (store m1 a); auto).
           destruct bad; auto.
        -- split; intros (id' & a' & v' & P' & C'); rewrite (U _ _ _ P'), C in C'; [discriminate C'|destruct C' as [C'|C']; discriminate C'].
        -- right. split; [exists id, a, (store m1 a); auto|].
           intros (id' & a' & v' & P' & C'); rewrite (U _ _ _ P'), C in C'; discriminate C'.
        -- right. split; [exists id, a, (store m1 a); auto|].
           intros (id' & a' & v' & P' & C'); rewrite (U _ _ _ P'), C in C'; discriminate C'.
      * right. intros id' a' v' P'. apply (puts_0 _ _ _ _ _ _ _ H) in P'. destruct P' as (w' & T' & _ & _ & G' & _).
        rewrite T in T'. injection T' as <- <-. congruence.
    + assert (N : forall id' a' v', ~ puts m (ins :: is) 0 id' a' v').
      { intros id' a' v' P'. apply (puts_0 _ _ _ _ _ _ _ H) in P'. destruct P' as (w' & T' & W & P & _).
        rewrite T in T'. injection T' as <- <-. apply Nat.ltb_lt in W, P. rewrite W, P in L. discriminate L. }
      split; intros (id' & a' & v' & P' & _); exact (N _ _ _ P').
  - assert (N : forall id' a' v', ~ puts m (ins :: is) 0 id' a' v').
    { intros id' a' v' P'. apply (puts_0 _ _ _ _ _ _ _ H) in P'. destruct P' as (w' & T' & _). congruence. }
    split; intros (id' & a' & v' & P' & _); exact (N _ _ _ P').
Qed.
Lemma shows_S : forall chk m ins is m1 j, exec blank sem caddr ns m ins = Some m1 ->
  (shows chk m (ins :: is) (S j) <-> shows chk m1 is j).
Proof. intros chk m ins is m1 j H. split; intros (id & a & v & P & C); exists id, a, v; (split; [|exact C]); apply (puts_S m ins is m1); assumption. Qed.
Lemma breaks_S : forall chk m ins is m1 j, exec blank sem caddr ns m ins = Some m1 ->
  (breaks chk m (ins :: is) (S j) <-> breaks chk m1 is j).
Proof. intros chk m ins is m1 j H. split; intros (id & a & v & P & C); exists id, a, v; (split; [|exact C]); apply (puts_S m ins is m1); assumption. Qed.

(** Watching does not change what is computed: the run is the unwatched run up to where it
    ends. *)
Theorem C92_same_run : forall f is m ptrs m' k e, run f m ptrs is = (m', k, e) ->
  match e with
  | EDone => exe m is = (m', length is) /\ k = length is
  | EExec => exe m is = (m', k) /\ k < length is
  | _ => k < length is /\ exe m (firstn (S k) is) = (m', S k)
  end.
Proof.
  intros f is. induction is as [|ins is IH]; intros m ptrs m' k e R; cbn [runWatch] in R.
  - injection R as <- <- <-. auto.
  - destruct (exec blank sem caddr ns m ins) as [m1|] eqn:X.
    2:{ injection R as <- <- <-. cbn [execAll length]. rewrite X. split; [reflexivity|lia]. }
    assert (Rep : forall r, (m1, 0, r) = (m', k, e) -> r <> EDone -> r <> EExec ->
      match e with
      | EDone => exe m (ins :: is) = (m', length (ins :: is)) /\ k = length (ins :: is)
      | EExec => exe m (ins :: is) = (m', k) /\ k < length (ins :: is)
      | _ => k < length (ins :: is) /\ exe m (firstn (S k) (ins :: is)) = (m', S k)
      end).
    { intros r Q N1 N2. injection Q as <- <- <-. assert (G : 0 < length (ins :: is) /\ exe m (firstn 1 (ins :: is)) = (m1, 1)).
      { split; [cbn; lia|]. cbn. rewrite X. reflexivity. }
      destruct r; try exact G; congruence. }
    assert (CV : forall chk bad, bad <> EDone -> bad <> EExec -> forall r, checkVal nid chk bad m1 ins = Some r -> r <> EDone /\ r <> EExec).
    { clear. intros chk bad B1 B2 r C. unfold checkVal in C. destruct (execTarget nid ins) as [[id w]|]; [|discriminate].
      destruct (Nat.ltb 0 w && Nat.ltb 0 id); [|discriminate]. destruct (regs m1 w); [|injection C as <-; split; discriminate].
      destruct (chk (store m1 n)) as [[|]| |]; try discriminate C; injection C as <-; split; congruence. }
    destruct (if wNaN f then checkVal nid chkNaN ENaN m1 ins else None) as [r|] eqn:C1.
    { destruct (wNaN f); [|discriminate]. assert (B1 : ENaN <> EDone) by discriminate. assert (B2 : ENaN <> EExec) by discriminate.
      destruct (CV _ _ B1 B2 _ C1). eapply Rep; eauto. }
    destruct (if wInf f then checkVal nid chkInf EInf m1 ins else None) as [r|] eqn:C2.
    { destruct (wInf f); [|discriminate]. assert (B1 : EInf <> EDone) by discriminate. assert (B2 : EInf <> EExec) by discriminate.
      destruct (CV _ _ B1 B2 _ C2). eapply Rep; eauto. }
    destruct (if wPtr f then checkPtr nid m1 ptrs ins else (None, ptrs)) as [[r|] ptrs'] eqn:C3.
    { destruct (wPtr f); [|discriminate]. assert (r <> EDone /\ r <> EExec).
      { clear -C3. unfold checkPtr in C3. destruct (execTarget nid ins) as [[id w]|]; [|discriminate].
        destruct (Nat.ltb 0 w && Nat.ltb 0 id); [|discriminate]. destruct (regs m1 w); [|injection C3 as <- _; split; discriminate].
        destruct (existsb _ ptrs); [|discriminate]. injection C3 as <- _. split; discriminate. }
      destruct H. eapply Rep; eauto. }
    destruct (run f m1 ptrs' is) as [[m2 k2] e2] eqn:R2. injection R as -> <- ->.
    pose proof (IH _ _ _ _ _ R2) as I. cbn [length]. change (firstn (S (S k2)) (ins :: is)) with (ins :: firstn (S k2) is).
    destruct e; repeat (rewrite (exe_cons _ _ _ _ X)); destruct I as [I1 I2]; try (rewrite I1); try (rewrite I2); split; try lia; reflexivity.
Qed.

(** RunAll goes on where the counter stands; after a report the counter stays at the reported
    instruction, which has been executed and will be again by the next RunAll. *)
Theorem C92_counter : forall f prog m p m' p' e, p <= length prog ->
  runAllW blank sem caddr ns chkNaN chkInf nid f prog (VM m p) = (VM m' p', e) ->
  match e with
  | EDone => p' = length prog /\ exe m (skipn p prog) = (m', length prog - p)
  | EExec => p <= p' < length prog /\ exe m (skipn p prog) = (m', p' - p)
  | _ => p <= p' < length prog /\ exe m (firstn (S (p' - p)) (skipn p prog)) = (m', S (p' - p))
  end.
Proof.
  intros f prog m p m' p' e L R. unfold runAllW in R. cbn [vst vpc] in R.
  destruct (run f m [] (skipn p prog)) as [[m1 k] e1] eqn:E. injection R as -> <- ->.
  pose proof (C92_same_run _ _ _ _ _ _ _ E) as A. rewrite skipn_length in A.
  assert (K : p + k - p = k) by lia. rewrite K.
  destruct e; destruct A as [A B]; split; first [lia | assumption].
Qed.

(** With WithNaNWatch: no instruction before the end of the run shows NaN, and NaN is reported
    at the end exactly if the last instruction shows it. *)
Theorem C92_nan : forall f is m ptrs m' k e, wNaN f = true -> run f m ptrs is = (m', k, e) ->
  (forall j, j < k -> ~ shows chkNaN m is j) /\ (e = ENaN <-> shows chkNaN m is k).
Proof.
  intros f is m ptrs m' k e F. revert m ptrs m' k e. induction is as [|ins is IH]; intros m ptrs m' k e R; cbn [runWatch] in R.
  - injection R as <- <- <-. split; [lia|]. split; [discriminate|]. intros (id & a & v & (i & rs & w & pre & un & m' & N & _) & _). discriminate N.
  - destruct (exec blank sem caddr ns m ins) as [m1|] eqn:X.
    2:{ injection R as <- <- <-. split; [lia|]. split; [discriminate|]. intros (id & a & v & P & _). destruct (puts_none _ _ _ _ _ _ _ X P). }
    rewrite F in R. pose proof (check_ok chkNaN ENaN m ins is m1 X) as CK.
    destruct (checkVal nid chkNaN ENaN m1 ins) as [r|].
    { injection R as <- <- <-. split; [lia|]. destruct r; try (destruct CK as [CK _]; discriminate CK).
      - split; [intros _; apply CK|reflexivity].
      - destruct CK as [[CK _]|CK]; [discriminate|]. split; [discriminate|]. intros (id & a & v & P & _). destruct (CK _ _ _ P).
      - destruct CK as [[CK _]|[_ CK]]; [discriminate|]. split; [discriminate|]. intro Sh. destruct (CK Sh). }
    destruct CK as [NS _].
    destruct (if wInf f then checkVal nid chkInf EInf m1 ins else None) as [r|] eqn:C2.
    { destruct (wInf f); [|discriminate]. injection R as <- <- <-. split; [lia|]. pose proof (check_ok chkInf EInf m ins is m1 X) as CI. rewrite C2 in CI.
      destruct r; try (destruct CI as [CI _]; discriminate CI); (split; [discriminate|intro Sh; destruct (NS Sh)]). }
    destruct (if wPtr f then checkPtr nid m1 ptrs ins else (None, ptrs)) as [[r|] ptrs'] eqn:C3.
    { destruct (wPtr f); [|discriminate]. injection R as <- <- <-. split; [lia|]. split; [|intro Sh; destruct (NS Sh)].
      intros ->. exfalso. clear -C3. unfold checkPtr in C3. destruct (execTarget nid ins) as [[id w]|]; [|discriminate].
      destruct (Nat.ltb 0 w && Nat.ltb 0 id); [|discriminate]. destruct (regs m1 w); [|discriminate].
      destruct (existsb _ ptrs); discriminate. }
    destruct (run f m1 ptrs' is) as [[m2 k2] e2] eqn:R2. injection R as -> <- ->.
    destruct (IH _ _ _ _ _ R2) as [I1 I2]. split.
    + intros [|j] Hj; [exact NS|]. rewrite (shows_S _ _ _ _ _ _ X). apply I1. lia.
    + rewrite (shows_S _ _ _ _ _ _ X). exact I2.
Qed.
(** Hence a run that finishes has shown none. *)
Theorem C92_nan_finished : forall f is m m' k, wNaN f = true -> run f m [] is = (m', k, EDone) ->
  forall j, ~ shows chkNaN m is j.
Proof.
  intros f is m m' k F R j Sh. destruct (C92_nan f is m [] m' k EDone F R) as [H _].
  pose proof (C92_same_run f is m [] m' k EDone R) as [_ ->]. apply (H j); [|exact Sh].
  destruct Sh as (id & a & v & (i & rs & w & pre & un & m2 & N & _) & _). apply nth_error_Some. congruence.
Qed.
(** WithInfWatch alone: the same for infinities. *)
Theorem C92_inf : forall f is m ptrs m' k e, wInf f = true -> wNaN f = false -> run f m ptrs is = (m', k, e) ->
  (forall j, j < k -> ~ shows chkInf m is j) /\ (e = EInf <-> shows chkInf m is k).
Proof.
  intros f is m ptrs m' k e F F0. revert m ptrs m' k e. induction is as [|ins is IH]; intros m ptrs m' k e R; cbn [runWatch] in R.
  - injection R as <- <- <-. split; [lia|]. split; [discriminate|]. intros (id & a & v & (i & rs & w & pre & un & m' & N & _) & _). discriminate N.
  - destruct (exec blank sem caddr ns m ins) as [m1|] eqn:X.
    2:{ injection R as <- <- <-. split; [lia|]. split; [discriminate|]. intros (id & a & v & P & _). destruct (puts_none _ _ _ _ _ _ _ X P). }
    rewrite F, F0 in R. pose proof (check_ok chkInf EInf m ins is m1 X) as CK.
    destruct (checkVal nid chkInf EInf m1 ins) as [r|].
    { injection R as <- <- <-. split; [lia|]. destruct r; try (destruct CK as [CK _]; discriminate CK).
      - split; [intros _; apply CK|reflexivity].
      - destruct CK as [[CK _]|CK]; [discriminate|]. split; [discriminate|]. intros (id & a & v & P & _). destruct (CK _ _ _ P).
      - destruct CK as [[CK _]|[_ CK]]; [discriminate|]. split; [discriminate|]. intro Sh. destruct (CK Sh). }
    destruct CK as [NS _].
    destruct (if wPtr f then checkPtr nid m1 ptrs ins else (None, ptrs)) as [[r|] ptrs'] eqn:C3.
    { destruct (wPtr f); [|discriminate]. injection R as <- <- <-. split; [lia|]. split; [|intro Sh; destruct (NS Sh)].
      intros ->. exfalso. clear -C3. unfold checkPtr in C3. destruct (execTarget nid ins) as [[id w]|]; [|discriminate].
      destruct (Nat.ltb 0 w && Nat.ltb 0 id); [|discriminate]. destruct (regs m1 w); [|discriminate].
      destruct (existsb _ ptrs); discriminate. }
    destruct (run f m1 ptrs' is) as [[m2 k2] e2] eqn:R2. injection R as -> <- ->.
    destruct (IH _ _ _ _ _ R2) as [I1 I2]. split.
    + intros [|j] Hj; [exact NS|]. rewrite (shows_S _ _ _ _ _ _ X). apply I1. lia.
    + rewrite (shows_S _ _ _ _ _ _ X). exact I2.
Qed.
(** A value at which hasNaN panics ends the program, if no report came before. *)
Theorem C92_panic : forall f is m ptrs m' k e, wNaN f = true -> wInf f = false -> run f m ptrs is = (m', k, e) ->
  (forall j, j < k -> ~ breaks chkNaN m is j) /\ (e = EPanic <-> breaks chkNaN m is k).
Proof.
  intros f is m ptrs m' k e F F0. revert m ptrs m' k e. induction is as [|ins is IH]; intros m ptrs m' k e R; cbn [runWatch] in R.
  - injection R as <- <- <-. split; [lia|]. split; [discriminate|]. intros (id & a & v & (i & rs & w & pre & un & m' & N & _) & _). discriminate N.
  - destruct (exec blank sem caddr ns m ins) as [m1|] eqn:X.
    2:{ injection R as <- <- <-. split; [lia|]. split; [discriminate|]. intros (id & a & v & P & _). destruct (puts_none _ _ _ _ _ _ _ X P). }
    rewrite F, F0 in R. pose proof (check_ok chkNaN ENaN m ins is m1 X) as CK.
    destruct (checkVal nid chkNaN ENaN m1 ins) as [r|] eqn:C1.
    { injection R as <- <- <-. split; [lia|]. destruct r; try (destruct CK as [CK _]; discriminate CK).
      - split; [discriminate|]. intros (id & a & v & P & C). destruct CK as [_ (id' & a' & v' & P' & C')].
        apply (puts_0 _ _ _ _ _ _ _ X) in P, P'. destruct P as (w & T & _ & _ & G & ->), P' as (w' & T' & _ & _ & G' & ->).
        assert (a = a') by congruence. subst. rewrite C' in C. destruct C as [C|C]; discriminate C.
      - destruct CK as [[CK _]|CK]; [discriminate|]. split; [discriminate|]. intros (id & a & v & P & _). destruct (CK _ _ _ P).
      - destruct CK as [[CK _]|[CK _]]; [discriminate|]. split; [intros _; exact CK|reflexivity]. }
    destruct CK as [_ NS].
    destruct (if wPtr f then checkPtr nid m1 ptrs ins else (None, ptrs)) as [[r|] ptrs'] eqn:C3.
    { destruct (wPtr f); [|discriminate]. injection R as <- <- <-. split; [lia|]. split; [|intro Sh; destruct (NS Sh)].
      intros ->. exfalso. clear -C3. unfold checkPtr in C3. destruct (execTarget nid ins) as [[id w]|]; [|discriminate].
      destruct (Nat.ltb 0 w && Nat.ltb 0 id); [|discriminate]. destruct (regs m1 w); [|discriminate].
      destruct (existsb _ ptrs); discriminate. }
    destruct (run f m1 ptrs' is) as [[m2 k2] e2] eqn:R2. injection R as -> <- ->.
    destruct (IH _ _ _ _ _ R2) as [I1 I2]. split.
    + intros [|j] Hj; [exact NS|]. rewrite (breaks_S _ _ _ _ _ _ X). apply I1. lia.
    + rewrite (breaks_S _ _ _ _ _ _ X). exact I2.
Qed.

(** WithPointerWatch alone: reported is the first instruction whose value is kept where that
    of an earlier one is kept. *)
Lemma ptr_gen : forall f is m ptrs m' k e, wPtr f = true -> wNaN f = false -> wInf f = false -> run f m ptrs is = (m', k, e) ->
  let cl j := exists id a v, puts m is j id a v /\ (In a (map snd ptrs) \/ exists j' id' v', j' < j /\ puts m is j' id' a v') in
  (forall j, j < k -> ~ cl j) /\ (e = EClash <-> cl k).
Proof.
  intros f is m ptrs m' k e F F0 F1. revert m ptrs m' k e. induction is as [|ins is IH]; intros m ptrs m' k e R cl; cbn [runWatch] in R.
  - injection R as <- <- <-. split; [lia|]. split; [discriminate|]. intros (id & a & v & (i & rs & w & pre & un & m' & N & _) & _). discriminate N.
  - destruct (exec blank sem caddr ns m ins) as [m1|] eqn:X.
    2:{ injection R as <- <- <-. split; [lia|]. split; [discriminate|]. intros (id & a & v & P & _). destruct (puts_none _ _ _ _ _ _ _ X P). }
    rewrite F, F0, F1 in R. unfold checkPtr in R.
    assert (No : forall P, (forall id a v, ~ puts m (ins :: is) 0 id a v) -> run f m1 ptrs is = P ->
                 forall m2 k2 e2, P = (m2, k2, e2) -> (forall j, j < S k2 -> ~ cl j) /\ (e2 = EClash <-> cl (S k2))).
    { intros P N R2 m2 k2 e2 ->. destruct (IH _ _ _ _ _ R2) as [I1 I2].
      assert (T : forall j, cl (S j) <-> exists id a v, puts m1 is j id a v /\ (In a (map snd ptrs) \/ exists j' id' v', j' < j /\ puts m1 is j' id' a v')).
      { intro j. unfold cl. split; intros (id & a & v & Pu & C); exists id, a, v; (split; [apply (puts_S m ins is m1); assumption|]);
          (destruct C as [C|(j' & id' & v' & L & Pu')]; [left; exact C|right]).
        - destruct j' as [|j']; [destruct (N _ _ _ Pu')|]. exists j', id', v'. split; [lia|]. apply (puts_S m ins is m1); assumption.
        - exists (S j'), id', v'. split; [lia|]. apply (puts_S m ins is m1); assumption. }
      split.
      - intros [|j] Hj; [intros (id & a & v & Pu & _); destruct (N _ _ _ Pu)|]. rewrite T. apply I1. lia.
      - rewrite T. exact I2. }
    destruct (execTarget nid ins) as [[id w]|] eqn:T.
    2:{ destruct (run f m1 ptrs is) as [[m2 k2] e2] eqn:R2. injection R as -> <- ->. apply (No (m', k2, e)) with (m2 := m'); [|reflexivity|reflexivity].
        intros id a v Pu. apply (puts_0 _ _ _ _ _ _ _ X) in Pu. destruct Pu as (w & T' & _). congruence. }
    destruct (Nat.ltb 0 w && Nat.ltb 0 id) eqn:L.
    2:{ destruct (run f m1 ptrs is) as [[m2 k2] e2] eqn:R2. injection R as -> <- ->. apply (No (m', k2, e)) with (m2 := m'); [|reflexivity|reflexivity].
        intros id' a v Pu. apply (puts_0 _ _ _ _ _ _ _ X) in Pu. destruct Pu as (w' & T' & W & P & _).
        rewrite T in T'. injection T' as <- <-. apply Nat.ltb_lt in W, P. rewrite W, P in L. discriminate L. }
    clear No. apply andb_true_iff in L. destruct L as [L1 L2]. apply Nat.ltb_lt in L1, L2.
    destruct (regs m1 w) as [a|] eqn:G.
    2:{ injection R as <- <- <-. split; [lia|]. split; [discriminate|]. intros (id' & a & v & Pu & _).
        apply (puts_0 _ _ _ _ _ _ _ X) in Pu. destruct Pu as (w' & T' & _ & _ & G' & _). rewrite T in T'. injection T' as <- <-. congruence. }
    assert (P0 : puts m (ins :: is) 0 id a (store m1 a)) by (apply (puts_0 _ _ _ _ _ _ _ X); exists w; auto).
    assert (U : forall id' a' v', puts m (ins :: is) 0 id' a' v' -> a' = a).
    { intros id' a' v' P'. apply (puts_0 _ _ _ _ _ _ _ X) in P'. destruct P' as (w' & T' & _ & _ & G' & ->). congruence. }
    assert (Ex : existsb (fun p : nat * nat => Nat.eqb (snd p) a) ptrs = true <-> In a (map snd ptrs)).
    { rewrite existsb_exists, in_map_iff. split; intros (p & H1 & H2); exists p; [apply Nat.eqb_eq in H2|]; auto. split; [exact H2|]. apply Nat.eqb_eq. exact H1. }
    destruct (existsb (fun p : nat * nat => Nat.eqb (snd p) a) ptrs) eqn:E.
    { injection R as <- <- <-. split; [lia|]. split; [|reflexivity]. intros _. exists id, a, (store m1 a). split; [exact P0|]. left. apply Ex. reflexivity. }
    destruct (run f m1 ((id, a) :: ptrs) is) as [[m2 k2] e2] eqn:R2. injection R as -> <- ->.
    destruct (IH _ _ _ _ _ R2) as [I1 I2]. cbn [map snd In] in I1, I2.
    assert (TT : forall j, cl (S j) <-> exists id1 a1 v1, puts m1 is j id1 a1 v1 /\ ((a = a1 \/ In a1 (map snd ptrs)) \/ exists j' id' v', j' < j /\ puts m1 is j' id' a1 v')).
    { intro j. unfold cl. split; intros (id1 & a1 & v1 & Pu & C); exists id1, a1, v1; (split; [apply (puts_S m ins is m1); assumption|]).
      - destruct C as [C|(j' & id' & v' & Lj & Pu')]; [left; right; exact C|].
        destruct j' as [|j']; [left; left; symmetry; exact (U _ _ _ Pu')|]. right. exists j', id', v'. split; [lia|]. apply (puts_S m ins is m1); assumption.
      - destruct C as [[C|C]|(j' & id' & v' & Lj & Pu')].
        + right. exists 0, id, (store m1 a). split; [lia|]. subst. exact P0.
        + left. exact C.
        + right. exists (S j'), id', v'. split; [lia|]. apply (puts_S m ins is m1); assumption. }
    split.
    + intros [|j] Hj.
      * intros (id1 & a1 & v1 & Pu & [C|(j' & _ & _ & Lj & _)]); [|lia]. rewrite (U _ _ _ Pu) in C. apply Ex in C. discriminate C.
      * rewrite TT. apply I1. lia.
    + rewrite TT. exact I2.
Qed.
Theorem C92_pointer : forall f is m m' k e, wPtr f = true -> wNaN f = false -> wInf f = false -> run f m [] is = (m', k, e) ->
  (forall j, j < k -> ~ clashes m is j) /\ (e = EClash <-> clashes m is k).
Proof.
  intros f is m m' k e F F0 F1 R. destruct (ptr_gen f is m [] m' k e F F0 F1 R) as [H1 H2].
  assert (T : forall j, clashes m is j <-> exists id a v, puts m is j id a v /\ (In a (map snd (@nil (nat * nat))) \/ exists j' id' v', j' < j /\ puts m is j' id' a v')).
  { intro j. split.
    - intros (id & a & v & j' & id' & v' & P & L & P'). exists id, a, v. split; [exact P|]. right. exists j', id', v'. auto.
    - intros (id & a & v & P & [[]|(j' & id' & v' & L & P')]). exists id, a, v, j', id', v'. auto. }
  split; [intros j Hj; rewrite T; exact (H1 j Hj)|rewrite T; exact H2].
Qed.
End Tape.

(** ** Compiled programs *)
Section Compiled.
Context {V : Type}.
Variable blank : V.
Variable sem : nat -> list V -> option V.
Variable caddr : nat -> nat.
Variable ns : list tnode.
Variables chkNaN chkInf : V -> BroadcastModel.res bool.
Variable nid : nat -> nat.
Notation run := (runWatch blank sem caddr ns chkNaN chkInf nid).

Lemma no_value : forall f is m ptrs m' k, wInf f = false -> wPtr f = false -> run f m ptrs is = (m', k, ENoValue) ->
  exists i rs w pre un, nth_error is k = Some (IExec i rs w pre un) /\ reaches blank sem caddr ns m is (S k) m' /\ regs m' w = None.
Proof.
  intros f is m ptrs m' k FI FP R. revert m ptrs m' k R. induction is as [|ins is IH]; intros m ptrs m' k R; cbn [runWatch] in R; [discriminate|].
  destruct (exec blank sem caddr ns m ins) as [m1|] eqn:X; [|discriminate]. rewrite FI, FP in R.
  destruct (if wNaN f then checkVal nid chkNaN ENaN m1 ins else None) as [r|] eqn:C1.
  - injection R as <- <- ->. destruct (wNaN f); [|discriminate]. unfold checkVal in C1.
    destruct ins as [| |i rs w pre un| |]; try discriminate C1. cbn [execTarget] in C1.
    destruct (Nat.ltb 0 w && Nat.ltb 0 (nid i)); [|discriminate]. destruct (regs m1 w) as [a|] eqn:G.
    + destruct (chkNaN (store m1 a)) as [[|]| |]; discriminate C1.
    + exists i, rs, w, pre, un. split; [reflexivity|]. split; [|exact G].
      apply (reaches_S blank sem caddr ns m _ is m1 0 m1 X). split; [lia|reflexivity].
  - destruct (run f m1 ptrs is) as [[m2 k2] e2] eqn:R2. injection R as -> <- ->.
    destruct (IH _ _ _ _ R2) as (i & rs & w & pre & un & N & Re & G). exists i, rs, w, pre, un. split; [exact N|]. split; [|exact G].
    apply (reaches_S blank sem caddr ns m ins is m1); assumption.
Qed.
Lemma only_nan : forall f is m ptrs m' k e, wInf f = false -> wPtr f = false -> run f m ptrs is = (m', k, e) -> e <> EInf /\ e <> EClash.
Proof.
  intros f is m ptrs m' k e FI FP R. revert m ptrs m' k e R. induction is as [|ins is IH]; intros m ptrs m' k e R; cbn [runWatch] in R.
  - injection R as <- <- <-. split; discriminate.
  - destruct (exec blank sem caddr ns m ins) as [m1|]; [|injection R as <- <- <-; split; discriminate]. rewrite FI, FP in R.
    destruct (if wNaN f then checkVal nid chkNaN ENaN m1 ins else None) as [r|] eqn:C1.
    + injection R as <- <- <-. destruct (wNaN f); [|discriminate]. unfold checkVal in C1. destruct (execTarget nid ins) as [[id w]|]; [|discriminate].
      destruct (Nat.ltb 0 w && Nat.ltb 0 id); [|discriminate]. destruct (regs m1 w) as [a|]; [|injection C1 as <-; split; discriminate].
      destruct (chkNaN (store m1 a)) as [[|]| |]; try discriminate C1; injection C1 as <-; split; discriminate.
    + destruct (run f m1 ptrs is) as [[m2 k2] e2] eqn:R2. injection R as -> <- ->. exact (IH _ _ _ _ _ R2).
Qed.

(** Where the operator of a node is executed. *)
Lemma exec_place : forall n k i rs w pre un,
  nth_error (List.concat (map (codeOf ns) (seq 0 n))) k = Some (IExec i rs w pre un) ->
  i < n /\ tk (nodeAt ns i) <> TArg /\ tk (nodeAt ns i) <> TLet /\ tk (nodeAt ns i) <> TRead /\ tk (nodeAt ns i) <> TAt /\ w = loc ns i /\
  firstn (S k) (List.concat (map (codeOf ns) (seq 0 n))) = List.concat (map (codeOf ns) (seq 0 (S i))).
Proof.
  induction n as [|n IH]; intros k i rs w pre un H; [destruct k; discriminate H|].
  rewrite seq_S, map_app, concat_app in H. rewrite (seq_S n 0), map_app, concat_app. cbn [map List.concat Nat.add] in *. rewrite app_nil_r in *.
  set (L := List.concat (map (codeOf ns) (seq 0 n))) in *.
  destruct (Nat.lt_ge_cases k (length L)) as [C|C].
  - rewrite nth_error_app1 in H by exact C. destruct (IH _ _ _ _ _ _ H) as (A1 & A2 & A3 & A4 & A4' & A5 & A6).
    split; [lia|]. split; [exact A2|]. split; [exact A3|]. split; [exact A4|]. split; [exact A4'|]. split; [exact A5|].
    rewrite firstn_app. replace (S k - length L) with 0 by lia. cbn [firstn]. rewrite app_nil_r. exact A6.
  - rewrite nth_error_app2 in H by exact C.
    assert (Q : exists al, codeOf ns n = al ++ [IExec n (map (loc ns) (tkids (nodeAt ns n))) (loc ns n) (preAt ns n) (unsafeAt ns n)]
       /\ tk (nodeAt ns n) <> TArg /\ tk (nodeAt ns n) <> TLet /\ tk (nodeAt ns n) <> TRead /\ tk (nodeAt ns n) <> TAt /\ (al = [] \/ al = [IAlloc n (loc ns n)])).
    { unfold codeOf in *. destruct (tk (nodeAt ns n)).
      1,5,6,7: destruct (k - length L) as [|[|x]]; discriminate H.
      all: eexists; split; [reflexivity|]; split; [discriminate|]; split; [discriminate|]; split; [discriminate|]; split; [discriminate|]; destruct (preAt ns n); auto. }
    destruct Q as (al & Q & K1 & K2 & K3 & K4 & Al). rewrite Q in H.
    assert (E : k - length L = length al /\ i = n /\ w = loc ns n).
    { destruct Al as [->| ->]; cbn in H; destruct (k - length L) as [|[|x]]; cbn in H; try discriminate H; try (destruct x; discriminate H); injection H as <- <- <- <- <-; auto. }
    destruct E as (E1 & -> & ->). split; [lia|]. split; [exact K1|]. split; [exact K2|]. split; [exact K3|]. split; [exact K4|]. split; [reflexivity|].
    rewrite (seq_S n 0), map_app, concat_app. cbn [map List.concat Nat.add]. rewrite app_nil_r. fold L.
    apply firstn_all2. rewrite app_length, Q, app_length. cbn [length]. lia.
Qed.
Lemma exec_there : forall n i, i < n -> tk (nodeAt ns i) <> TArg -> tk (nodeAt ns i) <> TLet -> tk (nodeAt ns i) <> TRead -> tk (nodeAt ns i) <> TAt ->
  exists k rs pre un, nth_error (List.concat (map (codeOf ns) (seq 0 n))) k = Some (IExec i rs (loc ns i) pre un).
Proof.
  induction n as [|n IH]; intros i H K1 K2 K3 K4; [lia|]. rewrite seq_S, map_app, concat_app. cbn [map List.concat Nat.add]. rewrite app_nil_r.
  destruct (Nat.eq_dec i n) as [->|N].
  - exists (length (List.concat (map (codeOf ns) (seq 0 n))) + (if preAt ns n then 1 else 0)), (map (loc ns) (tkids (nodeAt ns n))), (preAt ns n), (unsafeAt ns n).
    rewrite nth_error_app2 by lia.
    match goal with |- nth_error _ ?x = _ => replace x with (if preAt ns n then 1 else 0) by lia end.
    unfold codeOf. destruct (tk (nodeAt ns n)); try congruence; destruct (preAt ns n); reflexivity.
  - destruct (IH i ltac:(lia) K1 K2 K3 K4) as (k & rs & pre & un & Q). exists k, rs, pre, un. rewrite nth_error_app1; [exact Q|].
    apply nth_error_Some. congruence.
Qed.

Lemma loc_first : sortedGraph ns -> noLet ns -> hasValue ns 0 -> loc ns 0 = 0.
Proof.
  intros SG NL H0. destruct (alloc_decision ns SG NL 0 H0) as [[A _]|(_ & o & c & _ & _ & _ & _ & Nth & _)]; [exact A|].
  destruct (sg_kids ns SG 0 c (proj1 H0) (nth_error_In _ _ Nth)) as [C _]. lia.
Qed.

(** In a compiled program whose first node is an input or a constant the watch misses no node
    but those with the id 0 and the first: NaN is reported if and only if one of the others
    has it, inputs excepted; otherwise the program runs to its end. *)
Theorem C92_compiled : forall leaves m0,
  sortedGraph ns -> noLet ns -> noAlias ns -> noCollision ns ->
  (forall p, In p leaves -> p < length ns) -> ready ns caddr m0 ->
  (forall i, hasValue ns i -> exists v, evals ns sem (given ns caddr m0) i v) ->
  hasValue ns 0 -> kept ns 0 ->
  (forall i v, hasValue ns i -> evals ns sem (given ns caddr m0) i v -> exists b, chkNaN v = BroadcastModel.Ok b) ->
  let e := snd (runAllW blank sem caddr ns chkNaN chkInf nid (mkWatches true false false) (compile ns leaves) (VM m0 0)) in
  (e = ENaN <-> exists j v, hasValue ns j /\ tk (nodeAt ns j) <> TArg /\ 0 < j /\ 0 < nid j /\
                            evals ns sem (given ns caddr m0) j v /\ chkNaN v = BroadcastModel.Ok true) /\
  (e = ENaN \/ e = EDone).
Proof.
  intros leaves m0 SG NL NA NC LV RD Hv H0 K0 Chk.
  set (f := mkWatches true false false). unfold runAllW. cbn [vst vpc skipn].
  assert (CE : compile ns leaves = List.concat (map (codeOf ns) (seq 0 (length ns)))).
  { unfold compile. rewrite (codes_eq ns SG NL NC leaves LV). reflexivity. }
  set (prog := compile ns leaves) in *.
  destruct (run f m0 [] prog) as [[m' k] e] eqn:R. cbn [snd].
  assert (L0 : forall j, hasValue ns j -> (0 < loc ns j <-> 0 < j)).
  { assert (Z : loc ns 0 = 0) by (apply loc_first; assumption).
    intros j Hj. destruct j as [|j]; [rewrite Z; split; lia|]. split; [lia|]. intros _.
    destruct (loc ns (S j)) as [|x] eqn:Lj; [|lia]. exfalso.
    destruct (loc_shared_spec ns SG NL (S j) 0 Hj H0 (Nat.lt_0_succ j)) as [NK _]; [congruence|]. exact (NK K0). }
  (* the state in which the value of a node is inspected *)
  assert (Val : forall j rs w pre un x m1, nth_error prog x = Some (IExec j rs w pre un) -> reaches blank sem caddr ns m0 prog (S x) m1 ->
     hasValue ns j /\ tk (nodeAt ns j) <> TArg /\ w = loc ns j /\
     exists a, regs m1 w = Some a /\ evals ns sem (given ns caddr m0) j (store m1 a)).
  { intros j rs w pre un x m1 N Re. rewrite CE in N. destruct (exec_place _ _ _ _ _ _ _ N) as (Lj & A1 & A2 & A3 & A4 & -> & Fst).
    assert (HV : hasValue ns j) by (split; [exact Lj|auto]). split; [exact HV|]. split; [exact A1|]. split; [reflexivity|].
    destruct (prefix_run V blank sem caddr ns SG NL NA m0 RD (S j) Lj (fun i _ => Hv i)) as (m2 & St & I).
    destruct Re as [_ Re]. rewrite CE, Fst in Re. unfold steps in St. rewrite Re in St. injection St as -> _.
    destruct (i_val _ _ _ _ _ _ _ I j HV (Nat.lt_succ_diag_r j)) as (a & G & _ & _ & E & _); [intros y _ Y1 Y2; lia|].
    exists a. auto. }
  (* the whole program runs *)
  destruct (prefix_run V blank sem caddr ns SG NL NA m0 RD (length ns) (le_n _) (fun i _ => Hv i)) as (mE & StE & _).
  rewrite <- CE in StE. unfold steps in StE.
  assert (Rch : forall x, x <= length prog -> exists m1, reaches blank sem caddr ns m0 prog x m1).
  { intros x Lx. destruct (execAll blank sem caddr ns m0 (firstn x prog)) as [m1 y] eqn:Ex.
    exists m1. split; [exact Lx|]. rewrite Ex. f_equal.
    pose proof (execAll_len _ blank sem caddr ns _ _ _ _ Ex) as Ly. rewrite firstn_length_le in Ly by exact Lx.
    destruct (Nat.eq_dec y x) as [->|Ne]; [reflexivity|]. exfalso.
    pose proof (execAll_app_fail _ blank sem caddr ns (firstn x prog) m0 (skipn x prog) m1 y Ex) as Fa.
    rewrite firstn_skipn, firstn_length_le in Fa by exact Lx. rewrite Fa in StE by lia. injection StE as _ StE. lia. }
  destruct (C92_nan blank sem caddr ns chkNaN chkInf nid f prog m0 [] m' k e eq_refl R) as [Before At].
  pose proof (C92_same_run blank sem caddr ns chkNaN chkInf nid f prog m0 [] m' k e R) as Same.
  assert (Ends : e = ENaN \/ e = EDone).
  { destruct (only_nan f prog m0 [] m' k e eq_refl eq_refl R) as [O1 O2]. destruct e; try congruence; auto; exfalso.
    - destruct Same as [Sm Lk]. rewrite StE in Sm. injection Sm as _ Sm. lia.
    - destruct (no_value f prog m0 [] m' k eq_refl eq_refl R) as (j & rs & w & pre & un & N & Re & G).
      destruct (Val _ _ _ _ _ _ _ N Re) as (_ & _ & _ & a & G' & _). congruence.
    - destruct (C92_panic blank sem caddr ns chkNaN chkInf nid f prog m0 [] m' k EPanic eq_refl eq_refl R) as [_ P].
      destruct (proj1 P eq_refl) as (id & a & v & (j & rs & w & pre & un & m1 & N & _ & _ & _ & Re & G & ->) & C).
      destruct (Val _ _ _ _ _ _ _ N Re) as (HV & _ & _ & a' & G' & Ev). assert (a' = a) by congruence. subst a'.
      destruct (Chk _ _ HV Ev) as [b Cb]. rewrite Cb in C. destruct C as [C|C]; discriminate C. }
  split; [|exact Ends]. rewrite At. split.
  - intros (id & a & v & (j & rs & w & pre & un & m1 & N & -> & W & P & Re & G & ->) & C).
    destruct (Val _ _ _ _ _ _ _ N Re) as (HV & A1 & -> & a' & G' & Ev). assert (a' = a) by congruence. subst a'.
    exists j, (store m1 a). split; [exact HV|]. split; [exact A1|]. split; [apply (L0 j HV); exact W|]. auto.
  - intros (j & v & HV & A1 & Pj & Pi & Ev & C).
    destruct (exec_there (length ns) j (proj1 HV) A1 (proj1 (proj2 HV)) (proj1 (proj2 (proj2 HV))) (proj2 (proj2 (proj2 HV)))) as (x & rs & pre & un & N). rewrite <- CE in N.
    assert (Lx : x < length prog) by (apply nth_error_Some; congruence).
    destruct (Rch (S x) Lx) as [m1 Re]. destruct (Val _ _ _ _ _ _ _ N Re) as (_ & _ & _ & a & G & Ev').
    assert (Sh : shows blank sem caddr ns nid chkNaN m0 prog x).
    { exists (nid j), a, (store m1 a). split; [|replace (store m1 a) with v; [exact C|]; eapply evals_det; eassumption].
      exists j, rs, (loc ns j), pre, un, m1. split; [exact N|]. split; [reflexivity|]. split; [apply (L0 j HV); exact Pj|]. auto. }
    destruct Ends as [-> | ->]; [apply At; reflexivity|]. exfalso. destruct Same as [_ ->]. exact (Before x Lx Sh).
Qed.
End Compiled.

(** ** The lisp machine *)
(** Only NaN is watched for: the flag of WithInfWatch makes no difference. *)
Theorem C92_lisp_no_inf_watch : forall St Nd (step : St -> Nd -> option St) checked chk f f' s ns, wNaN f = wNaN f' ->
  lispForward step checked chk f s ns = lispForward step checked chk f' s ns.
Proof.
  intros St Nd step checked chk f f' s ns F. revert s. induction ns as [|n ns IH]; intro s; [reflexivity|]. cbn [lispForward].
  destruct (step s n) as [s'|]; [|reflexivity]. rewrite F, IH. reflexivity.
Qed.
(** After an error the lisp machine's counter is behind the node that failed, which a further
    run therefore leaves out. *)
Theorem C92_lisp_error : forall St Nd (step : St -> Nd -> option St) checked chk f s ns s' k,
  lispForward step checked chk f s ns = (s', k, EExec) ->
  0 < k /\ walks step s (firstn (k - 1) ns) s' /\ exists n, nth_error ns (k - 1) = Some n /\ step s' n = None.
Proof.
  intros St Nd step checked chk f s ns s' k. revert s s' k. induction ns as [|n ns IH]; intros s s' k R; cbn [lispForward] in R; [discriminate|].
  destruct (step s n) as [s1|] eqn:X.
  2:{ injection R as <- <-. split; [lia|]. split; [constructor|]. exists n. split; [reflexivity|exact X]. }
  destruct (if wNaN f && checked n then chk s1 n else BroadcastModel.Ok false) as [[|]| |]; try discriminate R.
  destruct (lispForward step checked chk f s1 ns) as [[s2 k2] e2] eqn:R2. injection R as -> <- ->.
  destruct (IH _ _ _ R2) as (P & W & n' & N & F). split; [lia|]. replace (S k2 - 1) with (S (k2 - 1)) by lia. cbn [firstn nth_error].
  split; [econstructor; eassumption|]. exists n'. split; assumption.
Qed.
(** NaN is reported at the first checked node that has it. *)
Theorem C92_lisp_nan : forall St Nd (step : St -> Nd -> option St) checked chk f s ns s' k e, wNaN f = true ->
  lispForward step checked chk f s ns = (s', k, e) ->
  (e = ENaN -> showsL step checked chk s ns (k - 1) /\ forall j, S j < k -> ~ showsL step checked chk s ns j) /\
  (e = EDone -> walks step s ns s' /\ forall j, ~ showsL step checked chk s ns j).
Proof.
  intros St Nd step checked chk f s ns s' k e F R. revert s s' k e R. induction ns as [|n ns IH]; intros s s' k e R; cbn [lispForward] in R.
  - injection R as <- <- <-. split; [discriminate|]. intros _. split; [constructor|]. intros j (n & s' & N & _). destruct j; discriminate N.
  - destruct (step s n) as [s1|] eqn:X; [|injection R as <- <- <-; split; discriminate].
    assert (W : forall j s2, walks step s (firstn (S (S j)) (n :: ns)) s2 <-> walks step s1 (firstn (S j) ns) s2).
    { intros j s2. change (firstn (S (S j)) (n :: ns)) with (n :: firstn (S j) ns). split.
      - intro H. inversion H as [|? ? sx ? ? Hs Hw]; subst. rewrite X in Hs. injection Hs as <-. exact Hw.
      - intro H. econstructor; eassumption. }
    assert (Sh : forall j, showsL step checked chk s (n :: ns) (S j) <-> showsL step checked chk s1 ns j).
    { intro j. split; intros (n' & s2 & N & Wk & C); exists n', s2; (split; [exact N|]); (split; [apply W; exact Wk|exact C]). }
    assert (Z : showsL step checked chk s (n :: ns) 0 <-> checked n = true /\ chk s1 n = BroadcastModel.Ok true).
    { split.
      - intros (n' & s2 & N & Wk & C). injection N as <-. inversion Wk as [|? ? sx ? ? Hs Hw]; subst. rewrite X in Hs. injection Hs as <-.
        inversion Hw; subst. exact C.
      - intro C. exists n, s1. split; [reflexivity|]. split; [|exact C]. econstructor; [exact X|constructor]. }
    rewrite F in R. cbn [andb] in R. destruct (checked n) eqn:Ck.
    + destruct (chk s1 n) as [[|]| |] eqn:C.
      * injection R as <- <- <-. split; [|discriminate]. intros _. cbn [Nat.sub]. split; [apply Z; auto|lia].
      * destruct (lispForward step checked chk f s1 ns) as [[s2 k2] e2] eqn:R2. injection R as -> <- ->. destruct (IH _ _ _ _ R2) as [I1 I2]. split.
        -- intros ->. destruct (I1 eq_refl) as [J1 J2]. assert (Pk : 0 < k2).
           { destruct k2; [|lia]. exfalso. clear -R2. revert R2. destruct ns as [|n' ns']; cbn; [discriminate|].
             destruct (step s1 n'); [|discriminate].
             destruct (if wNaN f && checked n' then chk s n' else BroadcastModel.Ok false) as [[|]| |]; try discriminate.
             destruct (lispForward step checked chk f s ns') as [[? ?] ?]; discriminate. }
           split; [replace (S k2 - 1) with (S (k2 - 1)) by lia; apply Sh; exact J1|].
           intros [|j] Hj; [rewrite Z; intros [_ C']; discriminate C'|]. rewrite Sh. apply J2. lia.
        -- intros ->. destruct (I2 eq_refl) as [J1 J2]. split; [econstructor; eassumption|].
           intros [|j]; [rewrite Z; intros [_ C']; discriminate C'|]. rewrite Sh. apply J2.
      * injection R as <- <- <-. split; discriminate.
      * injection R as <- <- <-. split; discriminate.
    + destruct (lispForward step checked chk f s1 ns) as [[s2 k2] e2] eqn:R2. injection R as -> <- ->. destruct (IH _ _ _ _ R2) as [I1 I2]. split.
      * intros ->. destruct (I1 eq_refl) as [J1 J2]. assert (Pk : 0 < k2).
        { destruct k2; [|lia]. exfalso. clear -R2. revert R2. destruct ns as [|n' ns']; cbn; [discriminate|].
          destruct (step s1 n'); [|discriminate].
          destruct (if wNaN f && checked n' then chk s n' else BroadcastModel.Ok false) as [[|]| |]; try discriminate.
          destruct (lispForward step checked chk f s ns') as [[? ?] ?]; discriminate. }
        split; [replace (S k2 - 1) with (S (k2 - 1)) by lia; apply Sh; exact J1|].
        intros [|j] Hj; [rewrite Z; intros [C' _]; discriminate C'|]. rewrite Sh. apply J2. lia.
      * intros ->. destruct (I2 eq_refl) as [J1 J2]. split; [econstructor; eassumption|].
        intros [|j]; [rewrite Z; intros [C' _]; discriminate C'|]. rewrite Sh. apply J2.
Qed.

(** ** The test of a value *)
(** hasNaN and hasInf find exactly the floating point entries of the value and its
    derivative. *)
Theorem C92_has : forall E (p : E -> bool) (s : ValuesModel.st E) v D,
  ValuesSpec.reads (ValuesModel.cells s) v D -> checkable ValuesModel.isFloat D ->
  exists b, ValuesModel.hasBad p s v = BroadcastModel.Ok b /\
            (b = true <-> has ValuesModel.isFloat (fun x => p x = true) D).
Proof.
  intros E p s v D R. induction R as [|k a x N|k sh a n xs Ln N|i v d DV DD R1 IH1 R2 IH2]; intro C; cbn [checkable] in C; cbn [ValuesModel.hasBad].
  - destruct C.
  - rewrite C. rewrite (ValuesProofs.readAt_one _ _ _ N). cbn [existsb]. eexists; split; [reflexivity|]. rewrite orb_false_r. split.
    + intro H. constructor; assumption.
    + intro H. inversion H; subst. assumption.
  - destruct (ValuesModel.isFloat k) eqn:F.
    + rewrite (ValuesProofs.readAt_spec _ _ _ _ Ln N). eexists; split; [reflexivity|]. rewrite existsb_exists. split.
      * intros (x & H1 & H2). econstructor; eassumption.
      * intro H. inversion H; subst. eexists; split; eassumption.
    + eexists; split; [reflexivity|]. split; [discriminate|]. intro H. inversion H; subst. congruence.
  - destruct C as [C1 C2]. destruct (IH1 C1) as (b1 & -> & B1), (IH2 C2) as (b2 & Q2 & B2). cbn [ShapeGradModel.bind]. destruct b1.
    + exists true. split; [reflexivity|]. split; [intros _; apply has_v; apply B1; reflexivity|reflexivity].
    + exists b2. split; [exact Q2|]. rewrite B2. split; [apply has_d|]. intro H. inversion H as [| |? ? H1|? ? H1]; subst; [|exact H1].
      apply B1 in H1. discriminate H1.
Qed.
(** They panic at a scalar that is not floating point, and at a derivative that is missing
    unless the value is bad already. *)
Theorem C92_has_panics : forall E (p : E -> bool) (s : ValuesModel.st E) v D,
  ValuesSpec.reads (ValuesModel.cells s) v D ->
  (forall k x, D = ValuesSpec.DS k x -> ValuesModel.isFloat k = false -> ValuesModel.hasBad p s v = BroadcastModel.Panic) /\
  (forall A, D = ValuesSpec.DD A ValuesSpec.DNil -> checkable ValuesModel.isFloat A ->
     (ValuesModel.hasBad p s v = BroadcastModel.Panic <-> ~ has ValuesModel.isFloat (fun x => p x = true) A)).
Proof.
  intros E p s v D R. split.
  - intros k x -> F. inversion R; subst. cbn. rewrite F. reflexivity.
  - intros A -> C. inversion R as [| | |i v1 d1 D1 D2 R1 R2]; subst. inversion R2; subst. cbn [ValuesModel.hasBad].
    destruct (C92_has E p s v1 A R1 C) as (b & -> & B). cbn [ShapeGradModel.bind]. destruct b.
    + split; [discriminate|]. intro H. destruct H. apply B. reflexivity.
    + split; [|reflexivity]. intros _ H. apply B in H. discriminate H.
Qed.

(** ** Examples *)
(** The program of TapeProps ([a = x @ w + c], [b = a * x]) with 38, the value of [a], as NaN. *)
Definition exBad (n : nat) : nat -> BroadcastModel.res bool := fun v => BroadcastModel.Ok (Nat.eqb v n).
Definition exRun (f : watches) (bad inf : nat) :=
  runAllW 0 exSem exCaddr exT (exBad bad) (exBad inf) (fun i => i) f (compile exT [0; 1; 2]) (VM exM 0).
Example C92_nan_ex : snd (exRun (mkWatches true false false) 38 0) = ENaN /\ vpc (fst (exRun (mkWatches true false false) 38 0)) = 5.
Proof. vm_compute. split; reflexivity. Qed.
Example C92_nan_finished_ex : snd (exRun (mkWatches true false false) 1000 0) = EDone /\ vpc (fst (exRun (mkWatches true false false) 1000 0)) = 8.
Proof. vm_compute. split; reflexivity. Qed.
Example C92_inf_ex : snd (exRun (mkWatches false true false) 38 190) = EInf /\ vpc (fst (exRun (mkWatches false true false) 38 190)) = 7.
Proof. vm_compute. split; reflexivity. Qed.
Example C92_same_run_ex : fst (execAll 0 exSem exCaddr exT exM (firstn 6 (compile exT [0; 1; 2]))) = vst (fst (exRun (mkWatches true false false) 38 0)).
Proof. vm_compute. reflexivity. Qed.
Example C92_panic_ex :
  snd (runAllW 0 exSem exCaddr exT (fun v => if Nat.eqb v 35 then BroadcastModel.Panic else BroadcastModel.Ok false) (exBad 0) (fun i => i)
         (mkWatches true false false) (compile exT [0; 1; 2]) (VM exM 0)) = EPanic.
Proof. vm_compute. reflexivity. Qed.
(** The program meets the conditions of C92_compiled. *)
Lemma exT_kept0 : hasValue exT 0 /\ kept exT 0.
Proof. split; [repeat split; [cbn; lia|discriminate..]|left; reflexivity]. Qed.
Example C92_compiled_ex : forall bad,
  let e := snd (exRun (mkWatches true false false) bad 0) in
  (e = ENaN <-> exists j v, hasValue exT j /\ tk (nodeAt exT j) <> TArg /\ 0 < j /\ 0 < j /\
                            evals exT exSem (given exT exCaddr exM) j v /\ exBad bad v = BroadcastModel.Ok true) /\
  (e = ENaN \/ e = EDone).
Proof.
  intro bad. destruct exT_kept0. apply C92_compiled; auto using exT_sorted, exT_noLet, exT_noAlias, exT_noCollision, exLeaves, exM_ready.
  - apply C09_ex.
  - intros i v _ _. eexists. reflexivity.
Qed.
(** WithPointerWatch reports this program, although it computes what it should: the operator
    of the second node overwrites its input. *)
Theorem C92_pointer_refuted :
  ~ (forall V (blank : V) sem caddr ns chk nid leaves m0,
     sortedGraph ns -> noLet ns -> noAlias ns -> noCollision ns ->
     (forall p, In p leaves -> p < length ns) -> ready ns caddr m0 ->
     (forall i, hasValue ns i -> exists v, evals ns sem (given ns caddr m0) i v) ->
     snd (runAllW blank sem caddr ns chk chk nid (mkWatches false false true) (compile ns leaves) (VM m0 0)) = EDone).
Proof.
  intro H. specialize (H nat 0 exSem exCaddr exT (exBad 0) (fun i => i) [0; 1; 2] exM exT_sorted exT_noLet exT_noAlias exT_noCollision exLeaves exM_ready
    (proj2 (proj2 C09_ex))). vm_compute in H. discriminate H.
Qed.
Example C92_pointer_ex : snd (exRun (mkWatches false false true) 0 0) = EClash /\ vpc (fst (exRun (mkWatches false false true) 0 0)) = 5.
Proof. vm_compute. split; reflexivity. Qed.

(** A constant NaN at the first position is not reported, although the run executes it and
    the operator of the second node, which does not hand NaN on, gets it. *)
Definition exBlind : list tnode :=
  [ TNode TConst [] 0 true false None false false false None false 0;
    TNode TConst [] 0 true false None false false false None false 1;
    bin_ 2 [0; 1] 2 ].
Definition exBlindM : mstate nat :=
  MState (fun _ => None) (fun a => match a with 0 => 5 | 1 => 7 | _ => 0 end) 2 (fun _ => None) (fun _ => None).
Lemma exBlind_sorted : sortedGraph exBlind.
Proof.
  constructor; intros i; do 3 (destruct i as [|i]; [cbn; intros; unfold hasValue; cbn;
    repeat match goal with
           | H : _ \/ _ |- _ => destruct H
           | H : False |- _ => destruct H
           | H : Some _ = Some _ |- _ => injection H as H
           end; subst; try discriminate;
    repeat split; cbn; try lia; try discriminate; try reflexivity |]); cbn; intros; lia.
Qed.
Theorem C92_first_node_refuted :
  ~ (forall V (blank : V) sem caddr ns chk nid leaves m0 j v,
     sortedGraph ns -> ready ns caddr m0 -> hasValue ns j -> tk (nodeAt ns j) <> TArg ->
     evals ns sem (given ns caddr m0) j v -> chk v = BroadcastModel.Ok true ->
     snd (runAllW blank sem caddr ns chk chk nid (mkWatches true false false) (compile ns leaves) (VM m0 0)) <> EDone).
Proof.
  intro H. apply (H nat 0 exSem exCaddr exBlind (exBad 5) (fun i => i) [0; 1] exBlindM 0 5 exBlind_sorted).
  - constructor.
    + reflexivity.
    + intros i Hi K. do 3 (destruct i as [|i]; [cbn in K; discriminate|]). cbn in Hi. lia.
    + intros i Hi K. do 3 (destruct i as [|i]; [cbn in K; try discriminate; unfold exCaddr; cbn; lia|]). cbn in Hi. lia.
  - repeat split; [cbn; lia|discriminate..].
  - discriminate.
  - change 5 with (given exBlind exCaddr exBlindM 0). apply ev_const; [cbn; lia|reflexivity].
  - reflexivity.
  - vm_compute. reflexivity.
Qed.

(** The lisp machine on three nodes: the first is an input and not checked. *)
Definition exL (f : watches) (bad : nat) :=
  lispForward (fun s n => Some (s + n)) (fun n => negb (Nat.eqb n 1)) (fun s _ => BroadcastModel.Ok (Nat.eqb s bad)) f 0 [1; 2; 3].
Example C92_lisp_nan_ex : exL (mkWatches true true false) 3 = (3, 2, ENaN) /\ exL (mkWatches true true false) 1 = (6, 3, EDone).
Proof. split; reflexivity. Qed.
Example C92_lisp_no_inf_watch_ex : exL (mkWatches false true false) 3 = (6, 3, EDone).
Proof. reflexivity. Qed.
(** A dual value: the derivative has the bad entry. *)
Definition exV : ValuesModel.st nat := ValuesModel.mkSt [1; 2; 9; 4] 0.
Example C92_has_ex :
  ValuesModel.hasBad (Nat.eqb 9) exV (ValuesModel.VD 0 (ValuesModel.VT ValuesModel.KF64 [2%Z] 0 2) (ValuesModel.VT ValuesModel.KF64 [2%Z] 2 2)) = BroadcastModel.Ok true /\
  ValuesModel.hasBad (Nat.eqb 8) exV (ValuesModel.VD 0 (ValuesModel.VT ValuesModel.KF64 [2%Z] 0 2) (ValuesModel.VT ValuesModel.KF64 [2%Z] 2 2)) = BroadcastModel.Ok false.
Proof. split; reflexivity. Qed.
Example C92_has_panics_ex :
  ValuesModel.hasBad (Nat.eqb 9) exV (ValuesModel.VD 0 (ValuesModel.VS ValuesModel.KF64 0) ValuesModel.VNil) = BroadcastModel.Panic /\
  ValuesModel.hasBad (Nat.eqb 9) exV (ValuesModel.VS ValuesModel.KI 2) = BroadcastModel.Panic.
Proof. split; reflexivity. Qed.

Print Assumptions C92_same_run.
Print Assumptions C92_nan.
Print Assumptions C92_nan_finished.
Print Assumptions C92_inf.
Print Assumptions C92_panic.
Print Assumptions C92_pointer.
Print Assumptions C92_compiled.
Print Assumptions C92_lisp_no_inf_watch.
Print Assumptions C92_counter.
Print Assumptions C92_lisp_error.
Print Assumptions C92_lisp_nan.
Print Assumptions C92_has.
Print Assumptions C92_has_panics.
Print Assumptions C92_pointer_refuted.
Print Assumptions C92_first_node_refuted.
