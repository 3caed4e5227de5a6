(** A machine that queues its BLAS calls against one that runs them at once. *)
From Coq Require Import List Arith ZArith Lia Bool.
From Verif Require Import TapeModel TapeSpec TapeIntervals TapeProofs FlushModel FlushSpec FlushProofs.
Import ListNotations.
Local Open Scope nat_scope.

Section Work.
Variable V : Type.
Variable blank : V.
Variable sem : nat -> list V -> option V.
Variable caddr : nat -> nat.
Variable ns : list tnode.

Lemma updN_eq : forall A (f : nat -> A) i v, updN f i v i = v.
Proof. intros. unfold updN. rewrite Nat.eqb_refl. reflexivity. Qed.
Lemma updN_neq : forall A (f : nat -> A) i v x, x <> i -> updN f i v x = f x.
Proof. intros A f i v x N. unfold updN. destruct (Nat.eqb_spec x i); congruence. Qed.

Lemma map_agree : forall A (f g : nat -> A) l, (forall x, In x l -> f x = g x) -> map f l = map g l.
Proof. intros A f g l H. apply map_ext_in. exact H. Qed.

Lemma workAll_ext : forall q s s' t, (forall x, s x = s' x) -> workAll sem ns s q = Some t ->
  exists t', workAll sem ns s' q = Some t' /\ forall x, t x = t' x.
Proof.
  induction q as [|b q IH]; intros s s' t E H; cbn [workAll] in *.
  - inversion H; subst. exists s'. auto.
  - unfold work1 in *. rewrite <- (map_agree _ s s' (jargs b)) by (intros; apply E).
    destruct (sem (top (nodeAt ns (jnode b))) (map s (jargs b))) as [v|]; [|discriminate].
    apply (IH (updN s (jdst b) v)); [|exact H].
    intros x. unfold updN. destruct (Nat.eqb x (jdst b)); auto.
Qed.

Lemma workAll_frame : forall q s t a v,
  (forall b, In b q -> ~ In a (jargs b) /\ jdst b <> a) -> workAll sem ns s q = Some t ->
  exists t', workAll sem ns (updN s a v) q = Some t' /\ forall x, t' x = updN t a v x.
Proof.
  induction q as [|b q IH]; intros s t a v Hq H; cbn [workAll] in *.
  - inversion H; subst. exists (updN t a v). auto.
  - destruct (Hq b (or_introl eq_refl)) as [Ha Hd]. unfold work1 in *.
    rewrite (map_agree _ (updN s a v) s (jargs b)).
    2:{ intros x Hx. apply updN_neq. intros ->. auto. }
    destruct (sem (top (nodeAt ns (jnode b))) (map s (jargs b))) as [u|]; [|discriminate].
    destruct (IH (updN s (jdst b) u) t a v) as (t' & W & E); [intros c Hc; apply Hq; right; exact Hc|exact H|].
    destruct (workAll_ext q (updN (updN s (jdst b) u) a v) (updN (updN s a v) (jdst b) u) t') as (t2 & W2 & E2).
    { intros x. unfold updN. destruct (Nat.eqb_spec x a); destruct (Nat.eqb_spec x (jdst b)); congruence. }
    { exact W. }
    exists t2. split; [exact W2|]. intros x. rewrite <- E2. apply E.
Qed.

Lemma workAll_other : forall q s t x, (forall b, In b q -> jdst b <> x) -> workAll sem ns s q = Some t ->
  t x = s x.
Proof.
  induction q as [|b q IH]; intros s t x Hq H; cbn [workAll] in *; [inversion H; reflexivity|].
  unfold work1 in H. destruct (sem (top (nodeAt ns (jnode b))) (map s (jargs b))) as [u|]; [|discriminate].
  rewrite (IH _ _ x (fun c Hc => Hq c (or_intror Hc)) H). apply updN_neq.
  intros E. exact (Hq b (or_introl eq_refl) (eq_sym E)).
Qed.

Lemma workAll_snoc : forall q s b, workAll sem ns s (q ++ [b]) =
  match workAll sem ns s q with Some t => work1 sem ns t b | None => None end.
Proof.
  induction q as [|c q IH]; intros s b; cbn [workAll app].
  - destruct (work1 sem ns s b); reflexivity.
  - destruct (work1 sem ns s c); [apply IH|reflexivity].
Qed.

(** [mh] is the machine that runs calls at once, [m] with the queue [q] the other. *)
Definition Settled (mh m : mstate V) (q : list job) : Prop :=
  regs m = regs mh /\ fresh m = fresh mh /\ bound m = bound mh /\ cells m = cells mh /\
  exists t, workAll sem ns (store m) q = Some t /\ forall x, t x = store mh x.

Lemma settled_flush : forall mh m q, Settled mh m q ->
  exists m', doWork sem ns (DS m q) = Some (DS m' []) /\ Settled mh m' [] /\ regs m' = regs m.
Proof.
  intros mh m q (A & B & C & D & t & W & E). unfold doWork. cbn [dm dq]. rewrite W.
  eexists. split; [reflexivity|]. split; [|reflexivity].
  split; [exact A|]. split; [exact B|]. split; [exact C|]. split; [exact D|].
  exists t. split; [reflexivity|exact E].
Qed.

Lemma settled_set : forall mh m q w i a, Settled mh m q ->
  Settled (bind (setReg mh w a) i a) (bind (setReg m w a) i a) q.
Proof.
  intros mh m q w i a (A & B & C & D & E). unfold Settled, bind, setReg.
  cbn [regs fresh bound cells store]. rewrite A, C. auto.
Qed.

Lemma settled_setReg : forall mh m q w a, Settled mh m q -> Settled (setReg mh w a) (setReg m w a) q.
Proof.
  intros mh m q w a (A & B & C & D & E). unfold Settled, setReg.
  cbn [regs fresh bound cells store]. rewrite A. auto.
Qed.

Lemma settled_poke : forall mh m q a v, Settled mh m q ->
  (forall b, In b q -> ~ In a (jargs b) /\ jdst b <> a) -> Settled (poke mh a v) (poke m a v) q.
Proof.
  intros mh m q a v (A & B & C & D & t & W & E) H. unfold Settled, poke. cbn [regs fresh bound cells store].
  split; [exact A|]. split; [exact B|]. split; [exact C|]. split; [exact D|].
  destruct (workAll_frame q (store m) t a v H W) as (t' & W' & E'). exists t'. split; [exact W'|].
  intros x. rewrite E'. unfold updN. destruct (Nat.eqb x a); auto.
Qed.

Lemma settled_malloc : forall mh m q v, Settled mh m q ->
  (forall b, In b q -> (forall x, In x (jargs b) -> x < fresh m) /\ jdst b < fresh m) ->
  Settled (fst (malloc mh v)) (fst (malloc m v)) q /\ snd (malloc m v) = snd (malloc mh v).
Proof.
  intros mh m q v S H. assert (F : fresh m = fresh mh) by apply S.
  destruct (settled_poke mh m q (fresh m) v S) as (A & B & C & D & t & W & E).
  { intros b Hb. destruct (H b Hb) as [H1 H2]. split; [intros Q; apply H1 in Q; lia|lia]. }
  unfold poke in *. cbn [regs fresh bound cells store] in *.
  split; [|exact F]. unfold malloc. cbn [fst]. split; [exact A|]. cbn [fresh bound cells store].
  split; [congruence|]. split; [exact C|]. split; [exact D|]. exists t. split; [exact W|].
  intros x. rewrite E. rewrite F. reflexivity.
Qed.

Lemma settled_fetch : forall mh m q rs, Settled mh m q -> fetch m rs = fetch mh rs.
Proof.
  intros mh m q rs (A & _). induction rs as [|r rs IH]; cbn [fetch]; [reflexivity|]. rewrite A, IH. reflexivity.
Qed.

Lemma settled_args : forall mh m q args, Settled mh m q ->
  (forall a b, In a args -> In b q -> jdst b <> a) -> map (store m) args = map (store mh) args.
Proof.
  intros mh m q args (_ & _ & _ & _ & t & W & E) H. apply map_agree. intros x Hx.
  rewrite <- E. symmetry. apply (workAll_other q _ _ x); [|exact W]. intros b Hb. apply H; auto.
Qed.

(** An operator that works at once. *)
Lemma settled_exec : forall mh m q i rs w pre un args mh1, Settled mh m q ->
  fetch mh rs = Some args ->
  (forall a b, In a args -> In b q -> jdst b <> a) ->
  (forall b, In b q -> (forall x, In x (jargs b) -> x < fresh m) /\ jdst b < fresh m) ->
  (forall p b, regs mh w = Some p -> In b q -> ~ In p (jargs b) /\ jdst b <> p) ->
  (un = true -> regs mh w <> None) ->
  exec blank sem caddr ns mh (IExec i rs w pre un) = Some mh1 ->
  exists m1, exec blank sem caddr ns m (IExec i rs w pre un) = Some m1 /\ Settled mh1 m1 q.
Proof.
  intros mh m q i rs w pre un args mh1 S F Ha Hb Hw Hu. cbn [exec]. unfold execOp.
  rewrite (settled_fetch mh m q rs S), F.
  assert (R : regs m = regs mh) by apply S. rewrite R.
  assert (Q : map (store m) args = map (store mh) args) by exact (settled_args mh m q args S Ha).
  assert (Do : forall r, doOp sem caddr ns mh i args = Some r ->
     exists m', doOp sem caddr ns m i args = Some (m', snd r) /\ Settled (fst r) m' q).
  { intros [mr a] H. unfold doOp in *. rewrite Q. cbn [fst snd].
    assert (H' : match sem (top (nodeAt ns i)) (map (store mh) args) with
      | Some v => match talias (nodeAt ns i) with
          | Some k => match nth_error args k with Some a => Some (mh, a) | None => None end
          | None => Some (malloc mh v) end
      | None => None end = Some (mr, a) -> exists m', match sem (top (nodeAt ns i)) (map (store mh) args) with
      | Some v => match talias (nodeAt ns i) with
          | Some k => match nth_error args k with Some a => Some (m, a) | None => None end
          | None => Some (malloc m v) end
      | None => None end = Some (m', a) /\ Settled mr m' q).
    { clear H. intros H. destruct (sem (top (nodeAt ns i)) (map (store mh) args)) as [v|]; [|discriminate].
      destruct (talias (nodeAt ns i)) as [k|].
      - destruct (nth_error args k); [|discriminate]. inversion H; subst. exists m. auto.
      - destruct (settled_malloc mh m q v S Hb) as [S' E]. assert (H0 : malloc mh v = (mr, a)) by congruence.
        exists (fst (malloc m v)). rewrite H0 in *. cbn [fst snd] in *. split; [|exact S'].
        rewrite <- E. destruct (malloc m v); reflexivity. }
    destruct (tk (nodeAt ns i)); try exact (H' H). inversion H; subst. exists m. auto. }
  assert (Pre : forall p r, regs mh w = Some p -> preDo sem ns mh i p args = Some r ->
     exists m', preDo sem ns m i p args = Some (m', snd r) /\ Settled (fst r) m' q).
  { intros p r Rp H. unfold preDo in *. rewrite Q. destruct (tpreok (nodeAt ns i)); [|discriminate].
    destruct (sem (top (nodeAt ns i)) (map (store mh) args)); [|discriminate]. inversion H; subst.
    cbn [fst snd]. eexists. split; [reflexivity|]. apply settled_poke; [exact S|].
    intros b Hq. apply (Hw p b Rp Hq). }
  assert (PreN : forall p, preDo sem ns mh i p args = None -> preDo sem ns m i p args = None).
  { intros p H. unfold preDo in *. rewrite Q. destruct (tpreok (nodeAt ns i)); [|reflexivity].
    destruct (sem (top (nodeAt ns i)) (map (store mh) args)); [discriminate|reflexivity]. }
  intros H.
  match type of H with match ?e with Some _ => _ | None => _ end = _ => destruct e as [[mr a]|] eqn:E; [|discriminate] end.
  inversion H; subst mh1. clear H.
  match goal with |- exists m1, match ?e with Some _ => _ | None => _ end = _ /\ _ =>
    assert (G : exists m', e = Some (m', a) /\ Settled mr m' q) end.
  { destruct pre.
    - destruct (tpre (nodeAt ns i)); [|exact (Do _ E)].
      destruct (regs mh w) as [p|] eqn:Rw; [|discriminate]. exact (Pre p _ eq_refl E).
    - destruct (regs mh w) as [p|] eqn:Rw.
      + destruct (tpre (nodeAt ns i)); [|exact (Do _ E)].
        destruct (preDo sem ns mh i p args) as [r|] eqn:P.
        * inversion E; subst r. destruct (Pre p _ eq_refl P) as (m' & E' & S'). rewrite E'. exists m'. auto.
        * rewrite (PreN p P). exact (Do _ E).
      + destruct un; [exfalso; apply Hu; auto|]. exact (Do _ E). }
  destruct G as (m' & -> & S'). eexists. split; [reflexivity|]. apply settled_set. exact S'.
Qed.
End Work.

(** ** Node by node *)
Section Sim.
Variable V : Type.
Variable blank : V.
Variable sem : nat -> list V -> option V.
Variable caddr : nat -> nat.
Variable ns : list tnode.
Let n := length ns.
Hypothesis SG : sortedGraph ns.
Hypothesis NL : noLet ns.
Hypothesis NA : noAlias ns.
Variable m0 : mstate V.
Hypothesis RD : ready ns caddr m0.
Let lc := loc ns.
Let IV := Inv V sem caddr ns m0.
Let St := Settled V sem ns.
Let run := dexecAll blank sem caddr ns.

(** Where the queued calls stand. *)
Definition JInv (j : nat) (rg : nat -> option nat) (q : list job) (pd : list (list nat * nat)) : Prop :=
  forall b, In b q ->
    jnode b < j /\ hasValue ns (jnode b) /\ tk (nodeAt ns (jnode b)) = TOp /\
    latest ns j (jnode b) /\ rg (lc (jnode b)) = Some (jdst b) /\
    Forall2 (fun c a => rg (lc c) = Some a) (tkids (nodeAt ns (jnode b))) (jargs b) /\
    (forall c, In c (tkids (nodeAt ns (jnode b))) -> latest ns j c) /\
    In (entry ns (jnode b)) pd.

Lemma run_app : forall a b d d1, run d a = Some d1 -> run d (a ++ b) = run d1 b.
Proof.
  induction a as [|f a IH]; intros b d d1 H; cbn [dexecAll run app] in *; [inversion H; reflexivity|].
  unfold run in *. cbn [dexecAll app] in *.
  destruct (dexec blank sem caddr ns d f) as [d'|]; [|discriminate]. apply IH. exact H.
Qed.

Lemma lead : forall (J : list job -> list (list nat * nat) -> Prop), J [] [] ->
  forall P mh m q pd ins R, withoutFlushes P = ins :: R ->
  St mh m q -> J q pd -> reads_ok ns pd P -> writes_ok ns pd P ->
  exists fl P' m' q' pd', P = fl ++ FI ins :: P' /\ withoutFlushes P' = R /\
    run (DS m q) fl = Some (DS m' q') /\ St mh m' q' /\ J q' pd' /\
    reads_ok ns pd' (FI ins :: P') /\ writes_ok ns pd' (FI ins :: P').
Proof.
  intros J J0. induction P as [|f P IH]; intros mh m q pd ins R E S Jq RO WO; cbn [withoutFlushes] in E; [discriminate|].
  destruct f as [i|].
  - inversion E; subst. exists [], P, m, q, pd. split; [reflexivity|]. split; [reflexivity|].
    split; [reflexivity|]. auto.
  - destruct (settled_flush V sem ns mh m q S) as (m1 & D & S1 & _).
    cbn [reads_ok writes_ok] in RO, WO.
    destruct (IH mh m1 [] [] ins R E S1 J0 RO WO) as (fl & P' & m' & q' & pd' & -> & E' & Rn & Rest).
    exists (FFlush :: fl), P', m', q', pd'. split; [reflexivity|]. split; [exact E'|].
    split; [|exact Rest]. unfold run in *. cbn [dexecAll dexec]. rewrite D. exact Rn.
Qed.

Lemma jinv_nil : forall j rg, JInv j rg [] [].
Proof. intros j rg b []. Qed.

Lemma run_snoc : forall fl d ins d1 d2, run d fl = Some d1 ->
  dexec blank sem caddr ns d1 (FI ins) = Some d2 -> run d (fl ++ [FI ins]) = Some d2.
Proof.
  intros fl d ins d1 d2 H1 H2. rewrite (run_app _ _ _ _ H1). unfold run. cbn [dexecAll]. rewrite H2. reflexivity.
Qed.

Lemma fetch_kids : forall m cs args, fetch m (map lc cs) = Some args ->
  Forall2 (fun c a => regs (V:=V) m (lc c) = Some a) cs args.
Proof.
  intros m. induction cs as [|c cs IH]; intros args H; cbn [map fetch] in H.
  - inversion H; subst. constructor.
  - destruct (regs m (lc c)) as [a|] eqn:R; [|discriminate].
    destruct (fetch m (map lc cs)) as [l|]; [|discriminate]. inversion H; subst. constructor; auto.
Qed.

Lemma F2_in_r : forall (P : nat -> nat -> Prop) cs args a, Forall2 P cs args -> In a args ->
  exists c, In c cs /\ P c a.
Proof.
  intros P cs args a F. induction F as [|c b cs args H F IH]; intros Hin; [destruct Hin|].
  destruct Hin as [<-|Hin]; [exists c; split; [left; reflexivity|exact H]|].
  destruct (IH Hin) as (c' & A & B). exists c'. split; [right; exact A|exact B].
Qed.

Lemma F2_impl : forall (P Q : nat -> nat -> Prop) cs args,
  (forall c a, In c cs -> P c a -> Q c a) -> Forall2 P cs args -> Forall2 Q cs args.
Proof.
  intros P Q cs args H F. induction F as [|c b cs args Hp F IH]; constructor.
  - apply H; [left; reflexivity|exact Hp].
  - apply IH. intros c' a' Hc. apply H. right. exact Hc.
Qed.

Lemma addr_lt : forall j mh i a, IV j mh -> hasValue ns i -> i < j -> latest ns j i ->
  regs mh (lc i) = Some a -> a < fresh mh.
Proof.
  intros j mh i a I HV Hi L R. destruct (i_val _ _ _ _ _ _ _ I i HV Hi L) as (b & R' & _ & H & _).
  unfold lc in R. congruence.
Qed.

(** Two nodes whose registers differ do not share memory that an operator wrote. *)
Lemma addr_sep : forall j mh x y a b, IV j mh ->
  hasValue ns x -> x < j -> latest ns j x -> opish ns x ->
  hasValue ns y -> y < j -> latest ns j y -> lc x <> lc y ->
  regs mh (lc x) = Some a -> regs mh (lc y) = Some b -> a <> b.
Proof.
  intros j mh x y a b I HVx Hx Lx Ox HVy Hy Ly N Ra Rb E. subst b.
  destruct (i_val _ _ _ _ _ _ _ I x HVx Hx Lx) as (a1 & R1 & _ & _ & _ & O1 & _).
  destruct (i_val _ _ _ _ _ _ _ I y HVy Hy Ly) as (a2 & R2 & _ & _ & _ & _ & O2).
  unfold lc in *. destruct (opish_dec V blank sem caddr ns m0 y) as [O|O].
  - apply (i_sep _ _ _ _ _ _ _ I x y); auto. congruence.
  - specialize (O1 Ox). specialize (O2 O). assert (a1 = a2) by congruence. lia.
Qed.

Lemma kid_facts : forall j c, j < n -> In c (tkids (nodeAt ns j)) ->
  c < j /\ hasValue ns c /\ latest ns j c.
Proof.
  intros j c Hj Hc. destruct (sg_kids ns SG j c Hj Hc) as [A B]. split; [exact A|]. split; [exact B|].
  intros k HVk H1 H2. apply (kid_latest ns SG NL j c k); auto. split; auto.
Qed.

(** The memory of the queued calls is old memory. *)
Lemma jobs_lt : forall j mh q pd, IV j mh -> JInv j (regs mh) q pd ->
  forall b, In b q -> (forall x, In x (jargs b) -> x < fresh mh) /\ jdst b < fresh mh.
Proof.
  intros j mh q pd I J b Hb. destruct (J b Hb) as (A & B & _ & L & R & F & K & _). split.
  - intros x Hx. destruct (F2_in_r _ _ _ x F Hx) as (c & Hc & Rc).
    destruct (kid_facts (jnode b) c (proj1 B) Hc) as (H1 & H2 & _).
    apply (addr_lt j mh c x I H2); auto. lia.
  - apply (addr_lt j mh (jnode b) _ I B A L R).
Qed.

Lemma jinv_next : forall j rg rg' q pd, JInv j rg q pd ->
  (forall b, In b q -> hasValue ns j -> lc j <> lc (jnode b) /\
      forall c, In c (tkids (nodeAt ns (jnode b))) -> lc j <> lc c) ->
  (forall r, (hasValue ns j -> r <> lc j) -> rg' r = rg r) -> JInv (S j) rg' q pd.
Proof.
  intros j rg rg' q pd J N E b Hb. destruct (J b Hb) as (A & B & T & L & R & F & K & P).
  assert (Ext : forall c, latest ns j c -> (hasValue ns j -> lc j <> lc c) -> latest ns (S j) c).
  { intros c Lc Nc i HVi H1 H2. destruct (Nat.eq_dec i j) as [->|Nij]; [exact (Nc HVi)|]. apply Lc; auto; lia. }
  split; [lia|]. split; [exact B|]. split; [exact T|].
  split; [apply Ext; [exact L|intros HV; exact (proj1 (N b Hb HV))]|].
  split; [rewrite E; [exact R|intros HV Q; apply (proj1 (N b Hb HV)); auto]|].
  split; [|split; [|exact P]].
  - apply (F2_impl (fun c a => rg (lc c) = Some a)); [|exact F].
    intros c a Hc Rc. rewrite E; [exact Rc|]. intros HV Q. apply (proj2 (N b Hb HV) c Hc). auto.
  - intros c Hc. apply Ext; [apply K; exact Hc|]. intros HV. apply (N b Hb HV). exact Hc.
Qed.

Lemma steps_one : forall mh ins mh1, steps V blank sem caddr ns mh [ins] mh1 ->
  exec blank sem caddr ns mh ins = Some mh1.
Proof.
  unfold steps. cbn [execAll length]. intros mh ins mh1 H.
  destruct (exec blank sem caddr ns mh ins); inversion H; reflexivity.
Qed.
Lemma steps_two : forall mh i1 i2 mh1, steps V blank sem caddr ns mh [i1; i2] mh1 ->
  exists mm, exec blank sem caddr ns mh i1 = Some mm /\ exec blank sem caddr ns mm i2 = Some mh1.
Proof.
  unfold steps. cbn [execAll length]. intros mh i1 i2 mh1 H.
  destruct (exec blank sem caddr ns mh i1) as [mm|]; [|inversion H].
  exists mm. split; [reflexivity|]. destruct (exec blank sem caddr ns mm i2); inversion H; reflexivity.
Qed.

(** Queueing a call. *)
Lemma settled_enqueue : forall mh m q j rs w pre un args mh1, St mh m q ->
  tk (nodeAt ns j) = TOp -> textern (nodeAt ns j) = true -> j < n ->
  fetch mh rs = Some args ->
  (forall a, In a args -> a < fresh mh) ->
  (forall b, In b q -> (forall x, In x (jargs b) -> x < fresh mh) /\ jdst b < fresh mh) ->
  (pre = false -> regs mh w = None) -> (un = true -> regs mh w <> None) ->
  exec blank sem caddr ns mh (IExec j rs w pre un) = Some mh1 ->
  exists m1 p, enqueue blank ns (DS m q) j rs w pre = Some (DS m1 (q ++ [Job j args p])) /\
    St mh1 m1 (q ++ [Job j args p]) /\ regs mh1 = updN (regs mh) w (Some p).
Proof.
  intros mh m q j rs w pre un args mh1 S0 T X Hj F Ha Hb Hp Hu H.
  assert (R : regs m = regs mh) by apply S0. assert (Fr : fresh m = fresh mh) by apply S0.
  cbn [exec] in H. unfold execOp in H. rewrite F in H. unfold enqueue. cbn [dm dq].
  unfold fetch in *. fold (fetch (V:=V)) in *.
  rewrite (settled_fetch V sem ns mh m q rs S0), F.
  (* both outcomes *)
  assert (Poke : forall p v, sem (top (nodeAt ns j)) (map (store mh) args) = Some v ->
     St (bind (setReg (poke mh p v) w p) j p) (bind (setReg m w p) j p) (q ++ [Job j args p])).
  { intros p v Ev. apply settled_set. destruct S0 as (A & B & C & D & t & W & E).
    unfold St, Settled, poke. cbn [regs fresh bound cells store].
    split; [exact A|]. split; [exact B|]. split; [exact C|]. split; [exact D|].
    exists (updN t p v). split.
    - rewrite workAll_snoc, W. unfold work1. cbn [jnode jargs jdst].
      rewrite (map_agree _ t (store mh) args) by (intros; apply E). rewrite Ev. reflexivity.
    - intros x. unfold updN. destruct (Nat.eqb x p); auto. }
  assert (New : forall v, sem (top (nodeAt ns j)) (map (store mh) args) = Some v ->
     St (bind (setReg (fst (malloc mh v)) w (fresh mh)) j (fresh mh))
        (bind (setReg (fst (malloc m blank)) w (fresh mh)) j (fresh mh)) (q ++ [Job j args (fresh mh)])).
  { intros v Ev. apply settled_set.
    destruct (settled_malloc V sem ns mh m q blank S0) as [S1 _].
    { intros b Hq. rewrite Fr. apply Hb. exact Hq. }
    destruct S1 as (A & B & C & D & t & W & E).
    unfold malloc in *. cbn [fst regs fresh bound cells store] in *.
    split; [exact A|]. split; [exact B|]. split; [exact C|]. split; [exact D|].
    exists (updN t (fresh mh) v). split.
    - rewrite workAll_snoc. cbn [store] in *. rewrite W. unfold work1. cbn [jnode jargs jdst].
      rewrite (map_agree _ t (store mh) args); [rewrite Ev; reflexivity|].
      intros x Hx. rewrite E. apply updN_neq. apply Ha in Hx. lia.
    - intros x. cbn [store]. unfold updN. destruct (Nat.eqb_spec x (fresh mh)) as [->|Nx]; [reflexivity|].
      rewrite E. apply updN_neq. exact Nx. }
  assert (Do : forall r, doOp sem caddr ns mh j args = Some r -> exists v,
     sem (top (nodeAt ns j)) (map (store mh) args) = Some v /\ r = malloc mh v).
  { intros r Hr. unfold doOp in Hr. rewrite T, (NA j Hj) in Hr.
    destruct (sem (top (nodeAt ns j)) (map (store mh) args)) as [v|]; [|discriminate].
    inversion Hr. exists v. auto. }
  assert (DoNew : match doOp sem caddr ns mh j args with
       | Some (m', a) => Some (bind (setReg m' w a) j a) | None => None end = Some mh1 ->
     exists m1 p, Some (DS (bind (setReg (fst (malloc m blank)) w (snd (malloc m blank))) j (snd (malloc m blank)))
         (q ++ [Job j args (snd (malloc m blank))])) = Some (DS m1 (q ++ [Job j args p])) /\
       St mh1 m1 (q ++ [Job j args p]) /\ regs mh1 = updN (regs mh) w (Some p)).
  { intros H1. destruct (doOp sem caddr ns mh j args) as [r|] eqn:Dr; [|discriminate].
    destruct (Do _ eq_refl) as (v & Ev & ->). unfold malloc in H1. inversion H1; subst mh1.
    exists (bind (setReg (fst (malloc m blank)) w (fresh mh)) j (fresh mh)), (fresh mh).
    cbn [malloc fst snd]. rewrite Fr. split; [reflexivity|]. split; [|reflexivity].
    specialize (New v Ev). unfold malloc in New. cbn [fst] in New. rewrite Fr in New. exact New. }
  unfold target. rewrite R. destruct pre.
  - destruct (tpre (nodeAt ns j)) eqn:Tp.
    + destruct (regs mh w) as [p|] eqn:Rw; [|discriminate].
      unfold preDo in H. rewrite (sg_pre ns SG j Hj X Tp) in *.
      destruct (sem (top (nodeAt ns j)) (map (store mh) args)) as [v|] eqn:Ev; [|discriminate].
      inversion H; subst mh1. exists (bind (setReg m w p) j p), p.
      split; [reflexivity|]. split; [apply Poke; reflexivity|reflexivity].
    + destruct (malloc m blank) as [m' p'] eqn:M. cbn [fst snd] in DoNew. apply DoNew. exact H.
  - rewrite (Hp eq_refl) in *. destruct un; [exfalso; apply Hu; auto|].
    destruct (malloc m blank) as [m' p'] eqn:M. cbn [fst snd] in DoNew. apply DoNew. exact H.
Qed.
Lemma exec_regs : forall mh i rs w pre un mh1,
  exec blank sem caddr ns mh (IExec i rs w pre un) = Some mh1 ->
  (exists args, fetch mh rs = Some args) /\ forall r, r <> w -> regs mh1 r = regs mh r.
Proof.
  intros mh i rs w pre un mh1 H. cbn [exec] in H. unfold execOp in H.
  destruct (fetch mh rs) as [args|]; [|discriminate]. split; [exists args; reflexivity|].
  intros r Nr.
  match type of H with match ?e with Some _ => _ | None => _ end = _ =>
    assert (G : forall x, e = Some x -> regs (fst x) = regs mh); [|destruct e as [[mr a]|]; [|discriminate]] end.
  { assert (Do : forall x, doOp sem caddr ns mh i args = Some x -> regs (fst x) = regs mh).
    { intros x Hx. unfold doOp, malloc in Hx.
      destruct (tk (nodeAt ns i)); try (inversion Hx; reflexivity);
      (destruct (sem (top (nodeAt ns i)) (map (store mh) args)); [|discriminate];
       destruct (talias (nodeAt ns i)) as [k|];
         [destruct (nth_error args k); [|discriminate]|]; inversion Hx; reflexivity). }
    assert (Pre : forall p x, preDo sem ns mh i p args = Some x -> regs (fst x) = regs mh).
    { intros p x Hx. unfold preDo in Hx. destruct (tpreok (nodeAt ns i)); [|discriminate].
      destruct (sem (top (nodeAt ns i)) (map (store mh) args)); inversion Hx; reflexivity. }
    assert (Un : forall x, unsafeDo sem ns mh i args = Some x -> regs (fst x) = regs mh).
    { intros x Hx. unfold unsafeDo in Hx. destruct (tover (nodeAt ns i)) as [o|]; [|discriminate].
      destruct (nth_error args o); [|discriminate].
      destruct (sem (top (nodeAt ns i)) (map (store mh) args)); inversion Hx; reflexivity. }
    intros x Hx. destruct pre.
    - destruct (tpre (nodeAt ns i)); [|auto]. destruct (regs mh w); [|discriminate]. eauto.
    - destruct (regs mh w) as [p|].
      + destruct (tpre (nodeAt ns i)); [|auto].
        destruct (preDo sem ns mh i p args) as [y|] eqn:P; [inversion Hx; subst; eauto|auto].
      + destruct un; [|auto]. destruct (tunsafe (nodeAt ns i)); auto. }
  specialize (G _ eq_refl). cbn [fst] in G. inversion H; subst mh1.
  cbn [bind setReg regs]. rewrite updN_neq by exact Nr. rewrite G. reflexivity.
Qed.

Lemma new_reg : forall j, hasValue ns j -> tk (nodeAt ns j) <> TOp \/ textern (nodeAt ns j) = true ->
  forall c, hasValue ns c -> c < j -> lc j <> lc c.
Proof.
  intros j HV H c HVc Hc E. destruct (loc_new_or_kid ns SG NL j HV) as [Q|(o & c' & T & X & _)].
  - exact (Q c HVc Hc (eq_sym E)).
  - destruct H as [H|H]; congruence.
Qed.

Lemma node_sim : forall j mh mh1 m q pd P R, j < n -> IV j mh ->
  steps V blank sem caddr ns mh (codeOf ns j) mh1 -> St mh m q -> JInv j (regs mh) q pd ->
  withoutFlushes P = codeOf ns j ++ R -> reads_ok ns pd P -> writes_ok ns pd P ->
  exists P1 P2 m' q' pd', P = P1 ++ P2 /\ withoutFlushes P2 = R /\
    run (DS m q) P1 = Some (DS m' q') /\ St mh1 m' q' /\ JInv (S j) (regs mh1) q' pd' /\
    reads_ok ns pd' P2 /\ writes_ok ns pd' P2.
Proof.
  intros j mh mh1 m q pd P R Hj I Sp S0 J E RO WO.
  assert (Jobs : forall q' pd', JInv j (regs mh) q' pd' ->
     (hasValue ns j -> forall c, hasValue ns c -> c < j -> lc j <> lc c) ->
     forall b, In b q' -> hasValue ns j -> lc j <> lc (jnode b) /\
       forall c, In c (tkids (nodeAt ns (jnode b))) -> lc j <> lc c).
  { intros q' pd' J' N b Hb HV. destruct (J' b Hb) as (A & B & _). split; [apply N; auto|].
    intros c Hc. destruct (kid_facts (jnode b) c (proj1 B) Hc) as (H1 & H2 & _). apply N; auto. lia. }
  assert (AtOnce : tk (nodeAt ns j) <> TArg -> tk (nodeAt ns j) <> TLet -> tk (nodeAt ns j) <> TRead ->
     tk (nodeAt ns j) <> TAt -> textern (nodeAt ns j) = false ->
     codeOf ns j = [IExec j (map lc (tkids (nodeAt ns j))) (lc j) false (unsafeAt ns j)] ->
     exists P1 P2 m' q' pd', P = P1 ++ P2 /\ withoutFlushes P2 = R /\
       run (DS m q) P1 = Some (DS m' q') /\ St mh1 m' q' /\ JInv (S j) (regs mh1) q' pd' /\
       reads_ok ns pd' P2 /\ writes_ok ns pd' P2).
  { intros N1 N2 N3 N4 X C. assert (HV : hasValue ns j) by (split; [exact Hj|auto]).
    rewrite C in E, Sp. cbn [app] in E.
    destruct (lead _ (jinv_nil j (regs mh)) P mh m q pd _ R E S0 J RO WO)
      as (fl & P' & m' & q' & pd' & -> & E' & Rn & S1 & J1 & RO1 & WO1).
    cbn [reads_ok writes_ok] in RO1, WO1. rewrite X in RO1, WO1.
    destruct RO1 as [Cr RO1]. destruct WO1 as [Cw WO1].
    apply steps_one in Sp. destruct (exec_regs _ _ _ _ _ _ _ Sp) as [[args F] Rg].
    assert (Fr : fresh m' = fresh mh) by apply S1.
    assert (KA := fetch_kids mh _ _ F).
    assert (Cr' : forall b c, In b q' -> In c (tkids (nodeAt ns j)) -> lc (jnode b) <> lc c).
    { intros b c Hb Hc Q. destruct (J1 b Hb) as (_ & _ & _ & _ & _ & _ & _ & Pd).
      apply (Cr _ _ Pd). rewrite in_map_iff. exists c. auto. }
    assert (Cw' : forall b c, In b q' -> In c (tkids (nodeAt ns (jnode b))) -> lc j <> lc c).
    { intros b c Hb Hc Q. destruct (J1 b Hb) as (_ & _ & _ & _ & _ & _ & _ & Pd).
      apply (Cw _ _ Pd). rewrite in_map_iff. exists c. auto. }
    assert (Nk : forall b, In b q' -> lc j <> lc (jnode b)).
    { intros b Hb Q. destruct (J1 b Hb) as (A & B & _).
      destruct (loc_new_or_kid ns SG NL j HV) as [W|(o & c & _ & _ & _ & Nth & Lc)].
      - exact (W _ B A (eq_sym Q)).
      - apply (Cr' b c Hb (nth_error_In _ _ Nth)). unfold lc in *. congruence. }
    assert (Opk : forall b, In b q' -> opish ns (jnode b)).
    { intros b Hb. left. apply (J1 b Hb). }
    destruct (settled_exec V blank sem caddr ns mh m' q' j (map lc (tkids (nodeAt ns j))) (lc j) false
                (unsafeAt ns j) args mh1 S1 F) as (m2 & Ex & S2).
    - intros a b Ha Hb. destruct (F2_in_r _ _ _ a KA Ha) as (c & Hc & Rc).
      destruct (kid_facts j c Hj Hc) as (H1 & H2 & H3).
      destruct (J1 b Hb) as (A & B & _ & L & Rk & _).
      apply (addr_sep j mh (jnode b) c _ _ I B A L (Opk b Hb) H2 H1 H3 (Cr' b c Hb Hc) Rk Rc).
    - intros b Hb. rewrite Fr. apply (jobs_lt j mh q' pd' I J1 b Hb).
    - intros p b Rp Hb. destruct (loc_new_or_kid ns SG NL j HV) as [W|(o & c & T & _ & _ & Nth & Lc)].
      + exfalso. rewrite (i_none _ _ _ _ _ _ _ I (lc j)) in Rp; [discriminate|].
        intros i HVi Hi. apply W; auto.
      + assert (Hc := nth_error_In _ _ Nth). destruct (kid_facts j c Hj Hc) as (H1 & H2 & H3).
        destruct (loc_shared_spec ns SG NL j c HV H2 H1 (eq_sym Lc)) as (NK & _).
        assert (Oc : opish ns c).
        { unfold opish. unfold kept in NK. destruct H2 as (_ & K1 & K2 & K3).
          destruct (tk (nodeAt ns c)); auto; exfalso; auto. }
        assert (Rc : regs mh (lc c) = Some p) by (unfold lc in *; rewrite <- Lc; exact Rp).
        destruct (J1 b Hb) as (A & B & _ & L & Rk & Fa & Lk & _). split.
        * intros Hp. destruct (F2_in_r _ _ _ p Fa Hp) as (c' & Hc' & Rc').
          destruct (kid_facts (jnode b) c' (proj1 B) Hc') as (G1 & G2 & _).
          assert (Gj : c' < j) by lia.
          apply (addr_sep j mh c c' p p I H2 H1 H3 Oc G2 Gj (Lk c' Hc')); auto.
          intros Q. apply (Cw' b c' Hb Hc'). unfold lc in *. congruence.
        * intros Q. apply (addr_sep j mh c (jnode b) p (jdst b) I H2 H1 H3 Oc B A L); auto.
          intros Q'. apply (Nk b Hb). unfold lc in *. congruence.
    - intros Hu. unfold unsafeAt in Hu. destruct (tover (nodeAt ns j)) as [o|]; [|discriminate].
      rewrite nth_error_map in Hu. destruct (nth_error (tkids (nodeAt ns j)) o) as [c|] eqn:Nth; [|discriminate].
      cbn [option_map] in Hu. apply Nat.eqb_eq in Hu.
      destruct (kid_facts j c Hj (nth_error_In _ _ Nth)) as (H1 & H2 & H3).
      destruct (i_val _ _ _ _ _ _ _ I c H2 H1 H3) as (a & Ra & _). unfold lc. rewrite <- Hu, Ra. discriminate.
    - exact Sp.
    - exists (fl ++ [FI (IExec j (map lc (tkids (nodeAt ns j))) (lc j) false (unsafeAt ns j))]), P', m2, q', pd'.
      split; [rewrite <- app_assoc; reflexivity|]. split; [exact E'|].
      split; [|split; [exact S2|split; [|auto]]].
      + apply (run_snoc fl _ _ _ _ Rn). cbn [dexec dm dq]. rewrite X. rewrite Ex. reflexivity.
      + apply (jinv_next j (regs mh)); [exact J1| |].
        * intros b Hb _. split; [exact (Nk b Hb)|]. intros c Hc. exact (Cw' b c Hb Hc).
        * intros r Nr. apply Rg. apply Nr. exact HV. }
  unfold codeOf in E, Sp, AtOnce. fold lc in E, Sp, AtOnce.
  destruct (tk (nodeAt ns j)) eqn:K.
  - (* arg *)
    assert (HV : hasValue ns j) by (split; [exact Hj|rewrite K; repeat split; discriminate]).
    clear AtOnce. cbn [app] in E.
    destruct (lead _ (jinv_nil j (regs mh)) P mh m q pd _ R E S0 J RO WO)
      as (fl & P' & m' & q' & pd' & -> & E' & Rn & S1 & J1 & RO1 & WO1).
    apply steps_one in Sp. cbn [exec] in Sp. destruct (bound mh j) as [a|] eqn:Ba; [|discriminate].
    inversion Sp; subst mh1.
    exists (fl ++ [FI (ILoad j (lc j))]), P', (setReg m' (lc j) a), q', pd'.
    split; [rewrite <- app_assoc; reflexivity|]. split; [exact E'|]. split; [|split; [|split; [|auto]]].
    + apply (run_snoc fl _ _ _ _ Rn). cbn [dexec exec dm dq].
      assert (B : bound m' = bound mh) by apply S1. rewrite B, Ba. reflexivity.
    + apply settled_setReg. exact S1.
    + apply (jinv_next j (regs mh)); [exact J1| |].
      * apply (Jobs q' pd' J1). intros _. apply new_reg; auto. left. congruence.
      * intros r Nr. cbn [setReg regs]. apply updN_neq. apply Nr. exact HV.
  - (* const *)
    assert (X : textern (nodeAt ns j) = false) by (apply (sg_leaf ns SG j Hj); auto).
    unfold preAt in *. rewrite X, andb_false_r in *. apply AtOnce; auto; discriminate.
  - (* random *)
    assert (X : textern (nodeAt ns j) = false) by (apply (sg_leaf ns SG j Hj); auto).
    unfold preAt in *. rewrite X, andb_false_r in *. apply AtOnce; auto; discriminate.
  - (* operator *)
    assert (HV : hasValue ns j) by (split; [exact Hj|rewrite K; repeat split; discriminate]).
    destruct (textern (nodeAt ns j)) eqn:X.
    2:{ unfold preAt in *. rewrite X, andb_false_r in *. apply AtOnce; auto; discriminate. }
    clear AtOnce.
    assert (New : forall c, hasValue ns c -> c < j -> lc j <> lc c) by (apply new_reg; auto).
    assert (None1 : regs mh (lc j) = None).
    { apply (i_none _ _ _ _ _ _ _ I). intros i HVi Hi Q. apply (New i HVi Hi). auto. }
    assert (Un : unsafeAt ns j = false).
    { apply not_true_is_false. intros Hu. unfold unsafeAt in Hu.
      destruct (tover (nodeAt ns j)) as [o|]; [|discriminate].
      rewrite nth_error_map in Hu. destruct (nth_error (tkids (nodeAt ns j)) o) as [c|] eqn:Nth; [|discriminate].
      cbn [option_map] in Hu. apply Nat.eqb_eq in Hu.
      destruct (kid_facts j c Hj (nth_error_In _ _ Nth)) as (H1 & H2 & _). apply (New c H2 H1). auto. }
    rewrite Un in *. set (reads := map lc (tkids (nodeAt ns j))) in *.
    assert (Queue : forall mm m' q' pd' P' pre, St mm m' q' -> JInv j (regs mh) q' pd' ->
       fresh mh <= fresh mm -> (forall r, r <> lc j -> regs mm r = regs mh r) ->
       (pre = false -> regs mm (lc j) = None) ->
       exec blank sem caddr ns mm (IExec j reads (lc j) pre false) = Some mh1 ->
       reads_ok ns pd' (FI (IExec j reads (lc j) pre false) :: P') ->
       writes_ok ns pd' (FI (IExec j reads (lc j) pre false) :: P') ->
       exists m2 q2 pd2, dexec blank sem caddr ns (DS m' q') (FI (IExec j reads (lc j) pre false)) = Some (DS m2 q2) /\
         St mh1 m2 q2 /\ JInv (S j) (regs mh1) q2 pd2 /\ reads_ok ns pd2 P' /\ writes_ok ns pd2 P').
    { intros mm m' q' pd' P' pre S1 J1 Fm Rm Hp Ex RO1 WO1.
      cbn [reads_ok writes_ok] in RO1, WO1. rewrite X in RO1, WO1.
      destruct (exec_regs _ _ _ _ _ _ _ Ex) as [[args F] _].
      assert (KA := fetch_kids mm _ _ F).
      assert (KA' : Forall2 (fun c a => regs mh (lc c) = Some a) (tkids (nodeAt ns j)) args).
      { apply (F2_impl (fun c a => regs mm (lc c) = Some a)); [|exact KA].
        intros c a Hc Ra. destruct (kid_facts j c Hj Hc) as (H1 & H2 & _).
        rewrite <- Rm; [exact Ra|]. intros Q. apply (New c H2 H1). auto. }
      destruct (settled_enqueue mm m' q' j reads (lc j) pre false args mh1 S1 K X Hj F) as (m2 & p & Eq & S2 & Rg).
      - intros a Ha. destruct (F2_in_r _ _ _ a KA' Ha) as (c & Hc & Ra).
        destruct (kid_facts j c Hj Hc) as (H1 & H2 & H3).
        assert (W := addr_lt j mh c a I H2 H1 H3 Ra). lia.
      - intros b Hb. destruct (jobs_lt j mh q' pd' I J1 b Hb) as [H1 H2]. split; [|lia].
        intros x Hx. specialize (H1 x Hx). lia.
      - exact Hp.
      - discriminate.
      - exact Ex.
      - exists m2, (q' ++ [Job j args p]), ((reads, lc j) :: pd').
        split; [cbn [dexec]; rewrite X; exact Eq|]. split; [exact S2|]. split; [|auto].
        assert (Rh : forall r, r <> lc j -> regs mh1 r = regs mh r).
        { intros r Nr. rewrite Rg, updN_neq by exact Nr. apply Rm. exact Nr. }
        intros b Hb. apply in_app_iff in Hb. destruct Hb as [Hb|[<-|[]]].
        + assert (Jn : JInv (S j) (regs mh1) q' pd').
          { apply (jinv_next j (regs mh)); [exact J1| |].
            - apply (Jobs q' pd' J1). intros _. exact New.
            - intros r Nr. apply Rh. apply Nr. exact HV. }
          destruct (Jn b Hb) as (A & B & C & D & G & H & L & M).
          split; [exact A|]. split; [exact B|]. split; [exact C|]. split; [exact D|].
          split; [exact G|]. split; [exact H|]. split; [exact L|]. right. exact M.
        + cbn [jnode jargs jdst]. split; [lia|]. split; [exact HV|]. split; [exact K|].
          split; [intros i _ H1 H2; lia|].
          split; [rewrite Rg; apply updN_eq|].
          split; [|split; [|left; reflexivity]].
          * apply (F2_impl (fun c a => regs mh (lc c) = Some a)); [|exact KA'].
            intros c a Hc Ra. destruct (kid_facts j c Hj Hc) as (H1 & H2 & _).
            rewrite Rh; [exact Ra|]. intros Q. apply (New c H2 H1). auto.
          * intros c Hc. destruct (kid_facts j c Hj Hc) as (H1 & H2 & H3).
            intros i HVi G1 G2. destruct (Nat.eq_dec i j) as [->|Nij]; [apply New; auto|].
            apply H3; auto. lia. }
    destruct (preAt ns j); cbn [app] in E, Sp.
    + apply steps_two in Sp. destruct Sp as (mm & Al & Ex).
      destruct (lead _ (jinv_nil j (regs mh)) P mh m q pd _ _ E S0 J RO WO)
        as (fl & P' & m' & q' & pd' & -> & E' & Rn & S1 & J1 & RO1 & WO1).
      cbn [reads_ok writes_ok] in RO1, WO1.
      cbn [exec] in Al. rewrite None1 in Al.
      assert (Hm : mm = setReg (fst (malloc mh blank)) (lc j) (fresh mh)).
      { unfold malloc in Al. inversion Al. reflexivity. }
      clear Al.
      destruct (settled_malloc V sem ns mh m' q' blank S1) as [S2 Sn].
      { intros b Hb. assert (Fr : fresh m' = fresh mh) by apply S1. rewrite Fr.
        apply (jobs_lt j mh q' pd' I J1 b Hb). }
      assert (S3 : St mm (setReg (fst (malloc m' blank)) (lc j) (fresh mh)) q').
      { rewrite Hm. apply settled_setReg. exact S2. }
      destruct (lead _ (jinv_nil j (regs mh)) P' mm _ q' pd' _ R E' S3 J1 RO1 WO1)
        as (fl2 & P2 & m3 & q3 & pd3 & -> & E3 & Rn2 & S4 & J3 & RO3 & WO3).
      destruct (Queue mm m3 q3 pd3 P2 true S4 J3) as (m4 & q4 & pd4 & Dx & S5 & J5 & RO5 & WO5); auto.
      { rewrite Hm. cbn. lia. }
      { intros r Nr. rewrite Hm. cbn [setReg malloc fst regs]. apply updN_neq. exact Nr. }
      { discriminate. }
      exists (fl ++ FI (IAlloc j (lc j)) :: fl2 ++ [FI (IExec j reads (lc j) true false)]), P2, m4, q4, pd4.
      split; [rewrite <- app_assoc; cbn [app]; rewrite <- app_assoc; reflexivity|]. split; [exact E3|].
      split; [|auto].
      rewrite (run_app _ _ _ _ Rn). unfold run. cbn [dexecAll dexec dm dq exec].
      assert (Rr : regs m' = regs mh) by apply S1. rewrite Rr, None1.
      assert (Fr : fresh m' = fresh mh) by apply S1.
      assert (Ma : malloc m' blank = (fst (malloc m' blank), fresh mh)).
      { rewrite <- Fr. reflexivity. }
      rewrite Ma. fold run. apply (run_snoc fl2 _ _ _ _ Rn2 Dx).
    + apply steps_one in Sp.
      destruct (lead _ (jinv_nil j (regs mh)) P mh m q pd _ _ E S0 J RO WO)
        as (fl & P' & m' & q' & pd' & -> & E' & Rn & S1 & J1 & RO1 & WO1).
      destruct (Queue mh m' q' pd' P' false S1 J1) as (m4 & q4 & pd4 & Dx & S5 & J5 & RO5 & WO5); auto.
      exists (fl ++ [FI (IExec j reads (lc j) false false)]), P', m4, q4, pd4.
      split; [rewrite <- app_assoc; reflexivity|]. split; [exact E'|]. split; [|auto].
      apply (run_snoc fl _ _ _ _ Rn Dx).
  - (* let *) exfalso. exact (NL j Hj K).
  - (* read *)
    clear AtOnce. cbn [app] in E.
    destruct (lead _ (jinv_nil j (regs mh)) P mh m q pd _ R E S0 J RO WO)
      as (fl & P' & m' & q' & pd' & -> & E' & Rn & S1 & J1 & RO1 & WO1).
    cbn [reads_ok writes_ok] in RO1, WO1. destruct RO1 as [Cr RO1].
    assert (Len := sg_read ns SG j Hj K).
    destruct (tkids (nodeAt ns j)) as [|c [|c' cs]] eqn:Kc; try discriminate. cbn [nth] in *.
    destruct (kid_facts j c Hj) as (H1 & H2 & H3); [rewrite Kc; left; reflexivity|].
    apply steps_one in Sp. cbn [exec] in Sp. destruct (regs mh (lc c)) as [a|] eqn:Ra; [|discriminate].
    assert (Sa : store m' a = store mh a).
    { assert (W := settled_args V sem ns mh m' q' [a] S1). cbn [map] in W.
      assert (W' : [store m' a] = [store mh a]); [|congruence]. apply W.
      intros a' b [<-|[]] Hb. destruct (J1 b Hb) as (A & B & T & L & Rk & _ & _ & Pd).
      apply (addr_sep j mh (jnode b) c _ _ I B A L (or_introl T) H2 H1 H3); auto.
      intros Q. apply (Cr (map lc (tkids (nodeAt ns (jnode b))))). rewrite <- Q. exact Pd. }
    assert (Rr : regs m' = regs mh) by apply S1.
    inversion Sp; subst mh1.
    eexists (fl ++ [FI (IRead j (lc c))]), P', _, q', pd'.
    split; [rewrite <- app_assoc; reflexivity|]. split; [exact E'|]. split; [|split; [|split; [|auto]]].
    + apply (run_snoc fl _ _ _ _ Rn). cbn [dexec exec dm dq]. rewrite Rr, Ra. reflexivity.
    + destruct S1 as (A & B & C & D & t & W & Et). unfold St, Settled. cbn [regs fresh bound cells store].
      split; [congruence|]. split; [exact B|]. split; [exact C|]. split; [rewrite D, Sa; reflexivity|].
      exists t. auto.
    + cbn [regs]. apply (jinv_next j (regs mh)); [exact J1| |reflexivity].
      intros b _ (_ & _ & Q & _). congruence.
  - (* at *)
    clear AtOnce. cbn [app] in E. unfold steps in Sp. cbn [execAll length] in Sp. inversion Sp; subst mh1.
    exists [], P, m, q, pd. split; [reflexivity|]. split; [exact E|]. split; [reflexivity|].
    split; [exact S0|]. split; [|auto].
    apply (jinv_next j (regs mh)); [exact J| |reflexivity].
    intros b _ (_ & _ & _ & Q). congruence.
Qed.

Lemma all_sim : forall len j mh m q pd P, j + len = n -> IV j mh ->
  (forall i, hasValue ns i -> exists v, evals ns sem (given ns caddr m0) i v) ->
  St mh m q -> JInv j (regs mh) q pd ->
  withoutFlushes P = List.concat (map (codeOf ns) (seq j len)) -> reads_ok ns pd P -> writes_ok ns pd P ->
  exists mh' m' q', steps V blank sem caddr ns mh (List.concat (map (codeOf ns) (seq j len))) mh' /\
    run (DS m q) P = Some (DS m' q') /\ St mh' m' q'.
Proof.
  induction len as [|len IH]; intros j mh m q pd P Hl I Hv S0 J E RO WO.
  - cbn [seq map List.concat] in *. exists mh.
    assert (G : forall P m q, withoutFlushes P = [] -> St mh m q ->
      exists m' q', run (DS m q) P = Some (DS m' q') /\ St mh m' q').
    { clear - St run. induction P as [|f P IHP]; intros m q E S0; [exists m, q; split; [reflexivity|exact S0]|].
      cbn [withoutFlushes] in E. destruct f as [i|]; [discriminate|].
      destruct (settled_flush V sem ns mh m q S0) as (m1 & D & S1 & _).
      destruct (IHP m1 [] E S1) as (m' & q' & Rn & S2). exists m', q'. split; [|exact S2].
      unfold run. cbn [dexecAll dexec]. rewrite D. exact Rn. }
    destruct (G P m q E S0) as (m' & q' & Rn & S1). exists m', q'.
    split; [apply steps_nil|]. auto.
  - cbn [seq map List.concat] in *. assert (Hj : j < n) by lia.
    destruct (node_step V blank sem caddr ns SG NL NA m0 RD j mh Hj I (Hv j)) as (mh1 & Sp & I1).
    destruct (node_sim j mh mh1 m q pd P _ Hj I Sp S0 J E RO WO)
      as (P1 & P2 & m1 & q1 & pd1 & -> & E2 & Rn & S1 & J1 & RO1 & WO1).
    destruct (IH (S j) mh1 m1 q1 pd1 P2) as (mh' & m' & q' & Sp' & Rn' & S2); auto; [lia|].
    exists mh', m', q'. split; [eapply steps_app; eauto|]. split; [|exact S2].
    rewrite (run_app _ _ _ _ Rn). exact Rn'.
Qed.
End Sim.
