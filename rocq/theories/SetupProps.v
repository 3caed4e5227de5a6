(** C119: set-up of the machines in CUDA builds. *)
From Coq Require Import List Arith ZArith Bool Lia Permutation.
From Verif Require Import BroadcastModel ShapeGradModel DeviceModel SetupModel SetupSpec.
Import ListNotations.
Local Open Scope Z_scope.

(** ** Memory *)
Lemma memSize_eq dt s : memSize dt s = dt * fold_left Z.mul s 1.
Proof.
  assert (H : forall l a, fold_left Z.mul l a = a * fold_right Z.mul 1 l).
  { induction l as [|x l IH]; intro a; cbn [fold_left fold_right]; [ring|]. rewrite IH. ring. }
  unfold memSize. rewrite H. destruct s; cbn [fold_right]; ring.
Qed.

Lemma growTo_length k g : length (growTo k g) = Nat.max (length g) (S k).
Proof.
  unfold growTo. destruct (Nat.ltb_spec (length g) (k + 1)) as [H|H]; [|lia].
  rewrite app_length, repeat_length. lia.
Qed.
Lemma growTo_nth k g j : nth j (growTo k g) 0 = nth j g 0.
Proof.
  unfold growTo. destruct (Nat.ltb_spec (length g) (k + 1)) as [H|H]; [|reflexivity].
  destruct (Nat.lt_ge_cases j (length g)) as [L|L]; [rewrite app_nth1 by exact L; reflexivity|].
  rewrite app_nth2 by exact L. rewrite (nth_overflow g) by exact L.
  set (m := (k + 1 - length g)%nat). set (i := (j - length g)%nat). clearbody m i. revert i.
  induction m as [|m IH]; intros [|i]; cbn; auto.
Qed.
Lemma addAt_ok k x g : (k < length g)%nat -> exists g', addAt k x g = Some g' /\ length g' = length g /\
  forall j, nth j g' 0 = nth j g 0 + if Nat.eqb j k then x else 0.
Proof.
  revert k. induction g as [|y g IH]; intros k L; cbn [length] in L; [lia|]. destruct k as [|k]; cbn [addAt].
  - exists (y + x :: g). repeat split. intros [|j]; cbn; lia.
  - destruct (IH k) as [g' [E [N V]]]; [lia|]. rewrite E. exists (y :: g'). cbn [length]. repeat split; [lia|].
    intros [|j]; cbn [nth Nat.eqb]; [lia|apply V].
Qed.

Lemma total_cons p n ns : total p (n :: ns) = (if p n then bytes n else 0) + total p ns.
Proof. unfold total. cbn [filter]. destruct (p n); cbn [map fold_right]; lia. Qed.

Definition cpuSide (n : snode) : bool := sarg n || onCPU n.
Lemma calcLoop_ok ns : typed ns -> forall c g, exists c' g', calcLoop ns c g = Ok (c', g') /\
  c' = c + total cpuSide ns /\ (forall k, nth k g' 0 = nth k g 0 + 4 * total (onCard k) ns) /\
  (forall k, (k < length g')%nat <-> (k < length g)%nat \/ exists n j, In n ns /\ onCard j n = true /\ (k <= j)%nat).
Proof.
  induction ns as [|n ns IH]; intros T c g; cbn [calcLoop].
  - exists c, g. repeat split; try (unfold total; cbn; lia); auto.
    intros [H|(n & j & [] & _)]; auto.
  - assert (T' : typed ns) by (intros m I; apply T; right; exact I).
    assert (SK : (forall k, onCard k n = false) -> forall P : Prop, forall k, (P \/ exists m j, In m ns /\ onCard j m = true /\ (k <= j)%nat) <->
      (P \/ exists m j, In m (n :: ns) /\ onCard j m = true /\ (k <= j)%nat)).
    { intros N P k. split; (intros [H|(m & j & I & O & L)]; [left; exact H|right; exists m, j]).
      - repeat split; auto. right. exact I.
      - destruct I as [->|I]; [rewrite N in O; discriminate|]. auto. }
    assert (SKIP : (forall k, onCard k n = false) -> forall x, (if cpuSide n then bytes n else 0) = x ->
      exists c' g', calcLoop ns (c + x) g = Ok (c', g') /\ c' = c + total cpuSide (n :: ns) /\
      (forall k, nth k g' 0 = nth k g 0 + 4 * total (onCard k) (n :: ns)) /\
      (forall k, (k < length g')%nat <-> (k < length g)%nat \/ exists m j, In m (n :: ns) /\ onCard j m = true /\ (k <= j)%nat)).
    { intros N x X. destruct (IH T' (c + x) g) as (c' & g' & E & C & G & L). exists c', g'. repeat split.
      - exact E.
      - rewrite total_cons. lia.
      - intro k. rewrite total_cons, N, G. lia.
      - intro H. apply L in H. apply (SK N) in H. exact H.
      - intro H. apply (SK N) in H. apply L. exact H. }
    destruct (sdt n) as [dt|] eqn:D.
    + cbv zeta. assert (B : memSize dt (sshape n) = bytes n) by (unfold bytes; rewrite D; apply memSize_eq).
      rewrite B. destruct (sarg n) eqn:A.
      { apply SKIP; [intro k; unfold onCard, operation; rewrite A; reflexivity|]. unfold cpuSide. rewrite A. reflexivity. }
      destruct (sstmt n) eqn:S0.
      { specialize (SKIP ltac:(intro k; unfold onCard, operation; rewrite A, S0; reflexivity) 0). rewrite Z.add_0_r in SKIP.
        apply SKIP. unfold cpuSide, onCPU, operation. rewrite A, S0. reflexivity. }
      destruct (son n) as [|k] eqn:O.
      { apply SKIP; [intro k; unfold onCard, operation; rewrite A, S0, O; reflexivity|]. unfold cpuSide, onCPU, operation. rewrite A, S0, O. reflexivity. }
      assert (OC : forall j, onCard j n = Nat.eqb k j) by (intro j; unfold onCard, operation; rewrite A, S0, O; reflexivity).
      assert (CS : cpuSide n = false) by (unfold cpuSide, onCPU, operation; rewrite A, S0, O; reflexivity).
      destruct (addAt_ok k (4 * bytes n) (growTo k g)) as (g1 & E1 & L1 & V1); [rewrite growTo_length; lia|].
      rewrite E1. destruct (IH T' c g1) as (c' & g' & E & C & G & L). exists c', g'. split; [exact E|]. split; [rewrite total_cons, CS; lia|]. split.
      * intro j. rewrite G, V1, growTo_nth, total_cons, OC, (Nat.eqb_sym k j). destruct (Nat.eqb j k); lia.
      * intro j. rewrite L, L1, growTo_length. split.
        -- intros [H|(m & i & I & P & Q)]; [|right; exists m, i; repeat split; auto; right; exact I].
           destruct (Nat.lt_ge_cases j (length g)) as [?|?]; [left; assumption|]. right. exists n, k.
           repeat split; [left; reflexivity|rewrite OC; apply Nat.eqb_refl|lia].
        -- intros [H|(m & i & [<-|I] & P & Q)]; [left; lia| |right; exists m, i; auto].
           rewrite OC in P. apply Nat.eqb_eq in P as ->. left. lia.
    + rewrite (T n (or_introl eq_refl) D). pose proof (T n (or_introl eq_refl) D) as S0.
      specialize (SKIP ltac:(intro k; unfold onCard, operation; rewrite S0, orb_true_r; reflexivity) 0). rewrite Z.add_0_r in SKIP. apply SKIP.
      unfold bytes. rewrite D. destruct (cpuSide n); reflexivity.
Qed.
Lemma calcLoop_panic ns : forall c g, calcLoop ns c g <> Panic.
Proof.
  induction ns as [|n ns IH]; intros c g; cbn [calcLoop]; [discriminate|].
  destruct (sdt n) as [dt|]; [|destruct (sstmt n); [apply IH|discriminate]].
  cbv zeta. destruct (sarg n); [apply IH|]. destruct (sstmt n); [apply IH|]. destruct (son n) as [|k]; [apply IH|].
  destruct (addAt_ok k (4 * memSize dt (sshape n)) (growTo k g)) as (g1 & E1 & _); [rewrite growTo_length; lia|].
  rewrite E1. apply IH.
Qed.
Lemma calcLoop_err ns c g : ~ typed ns -> calcLoop ns c g = Err.
Proof.
  revert c g. induction ns as [|n ns IH]; intros c g N; [exfalso; apply N; intros ? []|]. cbn [calcLoop].
  assert (NT : (sdt n = None -> sstmt n = true) -> ~ typed ns).
  { intros H T. apply N. intros m [<-|I]; [exact H|apply T; exact I]. }
  destruct (sdt n) as [dt|] eqn:D.
  - specialize (NT ltac:(discriminate)). cbv zeta. destruct (sarg n); [apply IH, NT|]. destruct (sstmt n); [apply IH, NT|].
    destruct (son n) as [|k]; [apply IH, NT|].
    destruct (addAt_ok k (4 * memSize dt (sshape n)) (growTo k g)) as (g1 & E1 & _); [rewrite growTo_length; lia|].
    rewrite E1. apply IH, NT.
  - destruct (sstmt n); [apply IH, NT; reflexivity|reflexivity].
Qed.

(** The memory counted is that of the values: for the CPU the inputs and what runs there,
    for a card four times what runs there; there is an entry for each card up to the last
    one used. Without a dtype there is an error, except for statements. *)
Theorem C119_memory : forall ns, typed ns -> exists c g, calcMem ns = Ok (c, g) /\
  c = total (fun n => sarg n || onCPU n) ns /\
  (forall k, nth k g 0 = 4 * total (onCard k) ns) /\ cardsNeeded ns (length g).
Proof.
  intros ns T. destruct (calcLoop_ok ns T 0 []) as (c & g & E & C & G & L). exists c, g.
  split; [exact E|]. split; [exact C|]. split.
  - intro k. rewrite G. destruct k; cbn [nth]; lia.
  - intro k. rewrite L. cbn [length]. split; [intros [H|H]; [lia|exact H]|auto].
Qed.
Theorem C119_memory_error : forall ns, ~ typed ns -> calcMem ns = Err.
Proof. intros ns N. apply calcLoop_err, N. Qed.

(** ** Transports *)
Lemma removeAt_mid {X} (a : list X) x b : removeAt (length a) (a ++ x :: b) = a ++ b.
Proof.
  unfold removeAt. rewrite firstn_app, Nat.sub_diag, firstn_all, app_nil_r. f_equal.
  change (S (length a)) with (1 + length a)%nat. rewrite skipn_app.
  rewrite skipn_all2 by lia. replace (1 + length a - length a)%nat with 1%nat by lia. reflexivity.
Qed.
Lemma dropTrans_ok b : forall fuel a, (length b <= fuel)%nat ->
  dropTrans fuel (length a) (a ++ b) = a ++ filter (fun n => negb (strans n)) b.
Proof.
  induction b as [|x b IH]; intros fuel a L.
  - cbn [filter]. rewrite app_nil_r. assert (N : nth_error a (length a) = None) by (apply nth_error_None; lia).
    destruct fuel; cbn [dropTrans]; [|rewrite N]; reflexivity.
  - cbn [length] in L. destruct fuel as [|fuel]; [lia|]. cbn [dropTrans].
    rewrite nth_error_app2, Nat.sub_diag by lia. cbn [nth_error filter]. destruct (strans x); cbn [negb].
    + rewrite removeAt_mid. apply IH. lia.
    + replace (a ++ x :: b) with ((a ++ [x]) ++ b) by (rewrite <- app_assoc; reflexivity).
      replace (S (length a)) with (length (a ++ [x])) by (rewrite app_length; cbn; lia).
      rewrite IH by lia. rewrite <- app_assoc. reflexivity.
Qed.
(** Forced to the CPU, a machine keeps its nodes in their order, without the transports,
    and each is on the CPU. *)
Theorem C119_force_cpu : forall m, lsorted (forceCPU m) = filter (fun n => negb (strans n)) (map (setOn Cpu) (lsorted m)) /\
  engines (lext (forceCPU m)) = [].
Proof.
  intro m. split; [|reflexivity]. unfold forceCPU. cbn [lsorted].
  apply (dropTrans_ok (map (setOn Cpu) (lsorted m)) _ []). lia.
Qed.

Section Cards.
Variable numDevices : option nat.
Variable getDevice : nat -> bool.
Variable callsOk : nat -> bool.
Variable freeMem : nat -> list (nat * Z) -> Z.
Notation initLoop := (initLoop getDevice callsOk freeMem).
Notation newLisp := (newLisp numDevices getDevice callsOk freeMem).
Notation newTape := (newTape numDevices getDevice callsOk freeMem).

(** Card [k] can be set up with [z] bytes, [h] being held. *)
Definition ready (k : nat) (z : Z) (h : list (nat * Z)) : Prop :=
  getDevice k = true /\ callsOk k = true /\ z < freeMem k h.

Lemma engineInit_spec k z h : match engineInit callsOk freeMem k z h with
  | Some b => b = allocSize z /\ callsOk k = true /\ allocSize z < freeMem k h
  | None => ~ (callsOk k = true /\ allocSize z < freeMem k h) end.
Proof.
  unfold engineInit. destruct (Z.leb_spec (freeMem k h) (allocSize z)) as [H|H]; [lia|].
  destruct (callsOk k); [auto|]. intros [X _]. discriminate.
Qed.
(** [f j] is what is asked for card [j]. *)
Lemma initLoop_spec (f : nat -> Z) sizes : forall i h es h' ok,
  (forall j, (j < length sizes)%nat -> allocSize (nth j sizes 0) = f (i + j)%nat) ->
  initLoop i sizes h = (es, h', ok) ->
  let blk n := map (fun k => (k, f k)) (seq i n) in
  length es = length sizes /\
  (if ok then es = map (fun k => Some (f k)) (seq i (length sizes)) /\ h' = h ++ blk (length sizes) /\
     forall j, (j < length sizes)%nat -> ready (i + j) (f (i + j)%nat) (h ++ blk j)
   else exists n, (n < length sizes)%nat /\ h' = h ++ blk n /\ ~ ready (i + n) (f (i + n)%nat) h' /\
     forall j, (j < n)%nat -> ready (i + j) (f (i + j)%nat) (h ++ blk j)).
Proof.
  induction sizes as [|z r IH]; intros i h es h' ok F E blk; cbn [SetupModel.initLoop] in E.
  - injection E as <- <- <-. subst blk. cbn. rewrite app_nil_r. split; [reflexivity|]. split; [reflexivity|]. split; [reflexivity|]. intros j; lia.
  - assert (F0 : allocSize z = f i). { specialize (F 0%nat). cbn [length nth] in F. rewrite Nat.add_0_r in F. apply F. lia. }
    assert (BAD : ~ ready i (f i) h -> let n := 0%nat in (n < length (z :: r))%nat /\ h = h ++ blk n /\ ~ ready (i + n) (f (i + n)%nat) h /\
      forall j, (j < n)%nat -> ready (i + j) (f (i + j)%nat) (h ++ blk j)).
    { intros N n. subst n blk. cbn [length seq map]. rewrite app_nil_r, Nat.add_0_r. split; [lia|]. split; [reflexivity|]. split; [exact N|intros; lia]. }
    destruct (getDevice i) eqn:G.
    + pose proof (engineInit_spec i z h) as S0. destruct (engineInit callsOk freeMem i z h) as [b|].
      * destruct S0 as (-> & C & M). destruct (initLoop (S i) r (h ++ [(i, allocSize z)])) as [[es1 h1] ok1] eqn:E1.
        injection E as <- <- <-. rewrite F0 in *.
        assert (FS : forall j, (j < length r)%nat -> allocSize (nth j r 0) = f (S i + j)%nat).
        { intros j J. specialize (F (S j)). cbn [length nth] in F. rewrite F by lia. f_equal. lia. }
        destruct (IH _ _ _ _ _ FS E1) as [L R]. cbn [length]. split; [lia|].
        assert (BS : forall n, (h ++ [(i, f i)]) ++ map (fun k => (k, f k)) (seq (S i) n) = h ++ blk (S n)).
        { intro n. rewrite <- app_assoc. reflexivity. }
        assert (R0 : ready (i + 0) (f (i + 0)%nat) (h ++ blk 0%nat)).
        { subst blk. cbn [seq map]. rewrite app_nil_r, Nat.add_0_r. repeat split; assumption. }
        destruct ok1.
        -- destruct R as (-> & -> & R). rewrite BS. split; [reflexivity|]. split; [reflexivity|].
           intros [|j] J; [apply R0|]. replace (i + S j)%nat with (S i + j)%nat by lia. rewrite <- BS. apply R. lia.
        -- destruct R as (n & Ln & -> & Nr & R). exists (S n). rewrite BS in *. split; [lia|]. split; [reflexivity|].
           replace (i + S n)%nat with (S i + n)%nat by lia. split; [exact Nr|].
           intros [|j] J; [apply R0|]. replace (i + S j)%nat with (S i + j)%nat by lia. rewrite <- BS. apply R. lia.
      * injection E as <- <- <-. cbn [length]. rewrite map_length. split; [reflexivity|]. exists 0%nat. apply BAD.
        rewrite F0 in S0. intros (_ & X & Y). tauto.
    + injection E as <- <- <-. cbn [length]. rewrite map_length. split; [reflexivity|]. exists 0%nat. apply BAD.
      intros (X & _). congruence.
Qed.

Lemma asked ns g k : nth k g 0 = 4 * total (onCard k) ns -> allocSize (nth k g 0) = wanted ns k.
Proof.
  intros ->. unfold allocSize, wanted. replace (4 * total (onCard k) ns) with (2 * total (onCard k) ns * 2) by lia.
  rewrite Z.quot_mul by lia. lia.
Qed.
Lemma needed_unique ns c c' : cardsNeeded ns c -> cardsNeeded ns c' -> c = c'.
Proof.
  intros A B. destruct (Nat.lt_trichotomy c c') as [L|[E|L]]; auto.
  - apply B in L. apply A in L. lia.
  - apply A in L. apply B in L. lia.
Qed.
Lemma needed_zero ns : cardsNeeded ns 0 <-> ~ usesCard ns.
Proof.
  split.
  - intros N (n & k & I & O). assert (X : (0 < 0)%nat) by (apply N; exists n, k; repeat split; auto; lia). lia.
  - intros N k. split; [lia|]. intros (n & j & I & O & _). exfalso. apply N. exists n, j. auto.
Qed.

(** No operation on a card: no driver call matters; the machine is made, has no engine,
    and all runs on the CPU. *)
Theorem C119_cpu_only : forall ns h, typed ns -> ~ usesCard ns -> exists m, newLisp ns h = (Ok m, h) /\
  engines (lext m) = [] /\ lsorted m = filter (fun n => negb (strans n)) (map (setOn Cpu) ns).
Proof.
  intros ns h T N. destruct (C119_memory ns T) as (c & g & E & _ & _ & L).
  apply needed_zero in N. assert (G : length g = 0%nat) by (eapply needed_unique; eauto).
  unfold SetupModel.newLisp, lispInit. cbn [lsorted lext]. rewrite E, G. cbn [Nat.eqb].
  exists (forceCPU (Lisp ns (newExt h))). repeat split. apply C119_force_cpu.
Qed.

(** An operation on a card: every card up to the last one used must be ready, in turn, for
    ten times its bytes and 256 more; then the machine is made with these engines. *)
Theorem C119_cards : forall ns h c, typed ns -> usesCard ns -> cardsNeeded ns c ->
  (exists d, numDevices = Some (S d)) ->
  (forall k, (k < c)%nat -> ready k (wanted ns k) (h ++ blocks ns k)) ->
  exists m, newLisp ns h = (Ok m, h ++ blocks ns c) /\ lsorted m = ns /\
    engines (lext m) = map (fun k => Some (wanted ns k)) (seq 0 c).
Proof.
  intros ns h c T U C (d & D) R. destruct (C119_memory ns T) as (cm & g & E & _ & G & L).
  assert (Q : length g = c) by (eapply needed_unique; eauto).
  assert (NZ : Nat.eqb c 0 = false). { apply Nat.eqb_neq. intros ->. apply needed_zero in C. exact (C U). }
  unfold SetupModel.newLisp, lispInit, extInit. cbn [lsorted lext newExt initialized held]. rewrite E, Q, NZ, D.
  destruct (initLoop 0 g h) as [[es h'] ok] eqn:I.
  assert (F : forall j, (j < length g)%nat -> allocSize (nth j g 0) = wanted ns (0 + j)) by (intros j _; apply asked, G).
  destruct (initLoop_spec (wanted ns) g 0 h es h' ok F I) as [Le S0]. destruct ok.
  - destruct S0 as (-> & -> & _). cbn [engines]. rewrite map_length, seq_length, Q, NZ. cbn [lext held]. rewrite <- Q.
    eexists. split; [reflexivity|]. split; reflexivity.
  - exfalso. destruct S0 as (n & Ln & -> & Nr & _). apply Nr. apply R. lia.
Qed.

(** Otherwise NewLispMachine panics: it never goes on with the CPU. Whatever was reserved
    on the cards before the one not ready is still held. *)
Theorem C119_no_fallback : forall ns h c, typed ns -> usesCard ns -> cardsNeeded ns c ->
  (numDevices = None \/ numDevices = Some 0%nat -> newLisp ns h = (Panic, h)) /\
  (forall d k, numDevices = Some (S d) -> (k < c)%nat ->
    (forall j, (j < k)%nat -> ready j (wanted ns j) (h ++ blocks ns j)) ->
    ~ ready k (wanted ns k) (h ++ blocks ns k) ->
    newLisp ns h = (Panic, h ++ blocks ns k)).
Proof.
  intros ns h c T U C. destruct (C119_memory ns T) as (cm & g & E & _ & G & L).
  assert (Q : length g = c) by (eapply needed_unique; eauto).
  assert (NZ : Nat.eqb c 0 = false). { apply Nat.eqb_neq. intros ->. apply needed_zero in C. exact (C U). }
  unfold SetupModel.newLisp, lispInit, extInit. cbn [lsorted lext newExt initialized held]. rewrite E, Q, NZ. split.
  - intros [-> | ->]; reflexivity.
  - intros d k -> K J N. destruct (initLoop 0 g h) as [[es h'] ok] eqn:I.
    assert (F : forall j, (j < length g)%nat -> allocSize (nth j g 0) = wanted ns (0 + j)) by (intros j _; apply asked, G).
    destruct (initLoop_spec (wanted ns) g 0 h es h' ok F I) as [Le S0]. destruct ok.
    + exfalso. apply N. destruct S0 as (_ & _ & S0). apply S0. lia.
    + destruct S0 as (n & Ln & -> & Nr & S0). cbn [initFail held lext].
      destruct (Nat.lt_trichotomy n k) as [X|[->|X]]; [|reflexivity|].
      * exfalso. apply Nr. apply J. exact X.
      * exfalso. apply N. apply S0. exact X.
Qed.
(** A missing dtype: the same panic. *)
Theorem C119_untyped : forall ns h, ~ typed ns -> newLisp ns h = (Panic, h).
Proof.
  intros ns h N. unfold SetupModel.newLisp, lispInit. cbn [lsorted lext]. rewrite (C119_memory_error ns N). reflexivity.
Qed.

(** A tape machine: the cards are set up when some instruction executes a CUDA operation,
    with two and a half times the memory counted by the compilation and 256 bytes more. *)
Theorem C119_tape : forall instrs gpumem h,
  let f k := let z := nth k gpumem 0 in 2 * z + Z.quot z 2 + 256 in
  let blk n := map (fun k => (k, f k)) (seq 0 n) in
  (~ In true instrs -> newTape instrs gpumem h = (Ok (newExt h), h)) /\
  (In true instrs ->
    (numDevices = None \/ numDevices = Some 0%nat -> newTape instrs gpumem h = (Panic, h)) /\
    (forall d, numDevices = Some (S d) ->
      ((forall k, (k < length gpumem)%nat -> ready k (f k) (h ++ blk k)) ->
        exists e, newTape instrs gpumem h = (Ok e, h ++ blk (length gpumem)) /\
          engines e = map (fun k => Some (f k)) (seq 0 (length gpumem))) /\
      (forall k, (k < length gpumem)%nat -> (forall j, (j < k)%nat -> ready j (f j) (h ++ blk j)) ->
        ~ ready k (f k) (h ++ blk k) -> newTape instrs gpumem h = (Panic, h ++ blk k)))).
Proof.
  intros instrs gpumem h f blk. unfold SetupModel.newTape. destruct (existsb (fun b => b) instrs) eqn:X.
  - apply existsb_exists in X as (b & I & ->). split; [intro N; contradiction|]. intros _.
    unfold extInit. cbn [newExt initialized held]. split; [intros [-> | ->]; reflexivity|]. intros d ->.
    destruct (initLoop 0 gpumem h) as [[es h'] ok] eqn:E.
    assert (F : forall j, (j < length gpumem)%nat -> allocSize (nth j gpumem 0) = f (0 + j)%nat) by reflexivity.
    destruct (initLoop_spec f gpumem 0 h es h' ok F E) as [Le S0]. destruct ok.
    + destruct S0 as (-> & -> & S0). split; [intros _; eexists; split; reflexivity|].
      intros k K _ N. exfalso. apply N, S0, K.
    + destruct S0 as (n & Ln & -> & Nr & S0). split.
      * intro R. exfalso. apply Nr. apply R. exact Ln.
      * intros k K J N. cbn [initFail held]. destruct (Nat.lt_trichotomy n k) as [Y|[->|Y]]; [|reflexivity|].
        -- exfalso. apply Nr. apply J. exact Y.
        -- exfalso. apply N. apply S0. exact Y.
  - split; [reflexivity|]. intro I. exfalso. assert (Y : existsb (fun b => b) instrs = true) by (apply existsb_exists; eauto). congruence.
Qed.

(** ** Closing *)
Lemma freeBlock_perm b h : In b h -> Permutation h (b :: freeBlock b h).
Proof.
  induction h as [|c r IH]; intro I; [destruct I|]. cbn [freeBlock].
  destruct (Nat.eqb (fst b) (fst c) && Z.eqb (snd b) (snd c)) eqn:E.
  - apply andb_true_iff in E as [A B]. apply Nat.eqb_eq in A. apply Z.eqb_eq in B. destruct b, c; cbn in *; subst. reflexivity.
  - destruct I as [->|I]; [rewrite Nat.eqb_refl, Z.eqb_refl in E; discriminate|].
    rewrite perm_swap. constructor. apply IH, I.
Qed.
Lemma closeAll_perm (f : nat -> Z) n : forall i h h0, Permutation h (h0 ++ map (fun k => (k, f k)) (seq i n)) ->
  Permutation (closeAll i (map (fun k => Some (f k)) (seq i n)) h) h0.
Proof.
  induction n as [|n IH]; intros i h h0 P; cbn [seq map closeAll] in *; [rewrite app_nil_r in P; exact P|].
  apply IH. assert (I : In (i, f i) h).
  { eapply Permutation_in; [symmetry; exact P|]. apply in_or_app. right. left. reflexivity. }
  apply freeBlock_perm in I. eapply Permutation_cons_inv with (a := (i, f i)). rewrite <- I, P.
  symmetry. apply Permutation_middle.
Qed.
(** Closing a machine gives back all it reserved (finalizeLispMachine). *)
Theorem C119_closed : forall ns h m h', typed ns -> newLisp ns h = (Ok m, h') ->
  Permutation (held (initFail (cleanup (lext m)))) h.
Proof.
  intros ns h m h' T E. destruct (C119_memory ns T) as (cm & g & EM & _ & G & L).
  unfold SetupModel.newLisp, lispInit, extInit in E. cbn [lsorted lext newExt initialized held] in E. rewrite EM in E.
  destruct (length g =? 0)%nat; [injection E as <- <-; cbn; reflexivity|].
  destruct numDevices as [[|d]|]; try discriminate.
  destruct (initLoop 0 g h) as [[es h1] ok] eqn:I.
  assert (F : forall j, (j < length g)%nat -> allocSize (nth j g 0) = wanted ns (0 + j)) by (intros j _; apply asked, G).
  destruct (initLoop_spec (wanted ns) g 0 h es h1 ok F I) as [Le S0]. destruct ok; [|discriminate].
  destruct S0 as (-> & -> & _). cbn [engines] in E. rewrite map_length, seq_length in E.
  destruct (length g =? 0)%nat eqn:Z0.
  - apply Nat.eqb_eq in Z0. rewrite Z0 in E. cbn [seq map] in E. rewrite app_nil_r in E. injection E as <- <-. cbn. reflexivity.
  - injection E as <- <-. cbn [lext initFail cleanup held engines]. apply closeAll_perm. reflexivity.
Qed.

(** ** Histories *)
Notation gdo := (gdo numDevices getDevice callsOk freeMem).
Notation grun := (grun numDevices getDevice callsOk freeMem).
Definition compiles (x : gstep) : bool := match x with GCompile _ => true | _ => false end.
Lemma cpu_noCard ns : Forall (fun n => son n = Cpu) ns -> ~ usesCard ns.
Proof.
  intros F (n & k & I & O). rewrite Forall_forall in F. unfold onCard in O. rewrite (F n I), andb_false_r in O. discriminate.
Qed.
Lemma typed_dec ns : typed ns \/ ~ typed ns.
Proof.
  induction ns as [|n ns IH]; [left; intros ? []|]. destruct IH as [T|N].
  - destruct (sdt n) eqn:D; [left; intros m [<-|I] E; [congruence|apply T; auto]|].
    destruct (sstmt n) eqn:S0; [left; intros m [<-|I] E; [exact S0|apply T; auto]|].
    right. intro H. specialize (H n (or_introl eq_refl) D). congruence.
  - right. intro H. apply N. intros m I. apply H. right. exact I.
Qed.
(** Unless the graph is compiled, every operation stays on the CPU and a Lisp machine has
    no engine, whatever cards there are. *)
Theorem C119_card_needs_compile : forall xs h, existsb compiles xs = false ->
  let s := grun xs h in
  snd s = h /\ Forall (fun n => son n = Cpu) (fst s) /\
  (typed (fst s) -> exists m, newLisp (fst s) h = (Ok m, h) /\ engines (lext m) = []).
Proof.
  intros xs h X. assert (H : forall s, snd s = h -> Forall (fun n => son n = Cpu) (fst s) ->
    let s' := fold_left gdo xs s in snd s' = h /\ Forall (fun n => son n = Cpu) (fst s')).
  { induction xs as [|x xs IH]; intros [ns h0] A B; cbn [fold_left]; [split; assumption|]. cbn [fst snd] in A, B. subst h0.
    cbn [existsb] in X. apply orb_false_iff in X as [X1 X2]. apply (IH X2).
    - destruct x; cbn [SetupModel.gdo]; try reflexivity; [destruct (nth_error ns i); reflexivity|].
      destruct (typed_dec ns) as [T|N]; [|rewrite (C119_untyped ns h N); reflexivity].
      destruct (C119_cpu_only ns h T (cpu_noCard ns B)) as (m & E & _). rewrite E. reflexivity.
    - destruct x; cbn [SetupModel.gdo].
      + cbn [fst]. apply Forall_app. split; [exact B|]. constructor; [reflexivity|constructor].
      + destruct (nth_error ns i) as [n|] eqn:E; [|exact B]. cbn [fst]. apply Forall_app. split; [exact B|].
        constructor; [|constructor]. rewrite Forall_forall in B. apply B. eapply nth_error_In; eauto.
      + discriminate.
      + destruct (newLisp ns h) as [[m| |] h'] eqn:E; cbn [fst]; try exact B.
        destruct (length (engines (lext m)) =? 0)%nat; [|exact B]. apply Forall_forall. intros n I.
        apply in_map_iff in I as (n0 & <- & _). reflexivity. }
  destruct (H ([], h) eq_refl (Forall_nil _)) as [A B]. split; [exact A|]. split; [exact B|]. intro T.
  destruct (C119_cpu_only _ h T (cpu_noCard _ B)) as (m & E & En & _). exists m. split; [exact E|exact En].
Qed.
(** Compiling puts the CUDA operations among the nodes picked on card 0, unless they are on a
    card already, and the other nodes picked on the CPU; nothing else changes. *)
Theorem C119_compile : forall ns h sel i n, nth_error ns i = Some n ->
  snd (gdo (ns, h) (GCompile sel)) = h /\ length (fst (gdo (ns, h) (GCompile sel))) = length ns /\
  exists n', nth_error (fst (gdo (ns, h) (GCompile sel))) i = Some n' /\
    (sarg n', sstmt n', sdt n', sshape n', scuda n', strans n') = (sarg n, sstmt n, sdt n, sshape n, scuda n, strans n) /\
    (sel i = false -> son n' = son n) /\
    (sel i = true -> scuda n = false -> son n' = Cpu) /\
    (sel i = true -> scuda n = true -> son n = Cpu -> son n' = Card 0) /\
    (forall k, sel i = true -> scuda n = true -> son n = Card k -> son n' = Card k).
Proof.
  intros ns h sel i n E. cbn [SetupModel.gdo fst snd]. split; [reflexivity|].
  assert (G : forall ns b i n, nth_error ns i = Some n -> nth_error (analyzeSel b sel ns) i = Some (if sel (b + i)%nat then analyzeOn n else n)).
  { clear. induction ns as [|m ns IH]; intros b [|i] n E; try discriminate; cbn in *.
    - injection E as <-. rewrite Nat.add_0_r. reflexivity.
    - rewrite (IH (S b) i n E). rewrite Nat.add_succ_r. reflexivity. }
  assert (L : forall ns b, length (analyzeSel b sel ns) = length ns) by (clear; induction ns; intro b; cbn; auto).
  split; [apply L|]. exists (if sel i then analyzeOn n else n). split; [exact (G ns 0%nat i n E)|]. unfold analyzeOn, setOn.
  destruct (sel i); (split; [reflexivity|]); repeat split; try discriminate; try reflexivity; cbn [son]; intros;
    repeat match goal with H : _ = _ |- _ => rewrite H end; try reflexivity.
Qed.
End Cards.

(** ** Refutations and examples *)
(** Two inputs, a product on card 1, its sum on the CPU, a statement. float64. *)
Definition exNodes : list snode :=
  [SN true false (Some 8) [2; 3] false false Cpu; SN true false (Some 8) [] false false Cpu;
   SN false false (Some 8) [2; 3] true false (Card 1); SN false false (Some 8) [] false false Cpu;
   SN false true None [] false false Cpu].
Definition small (k : nat) (h : list (nat * Z)) : Z := match k with O => 10000 | _ => 500 end.

(** A machine that cannot use its cards falls back to the CPU: false. *)
Theorem C119_falls_back_refuted : ~ (forall nd gd ck fm ns h, typed ns ->
  exists m h', newLisp nd gd ck fm ns h = (Ok m, h')).
Proof.
  intro H. destruct (H (Some 0%nat) (fun _ => true) (fun _ => true) small exNodes []) as (m & h' & E).
  - intros n I D. cbn in I. repeat (destruct I as [<-|I]; [cbn in D; try discriminate; reflexivity|]). destruct I.
  - vm_compute in E. discriminate.
Qed.
(** A machine that could not be made has given back what it reserved: false. *)
Theorem C119_gives_back_refuted : ~ (forall nd gd ck fm ns h h', typed ns ->
  newLisp nd gd ck fm ns h = (Panic, h') -> h' = h).
Proof.
  intro H. specialize (H (Some 2%nat) (fun _ => true) (fun _ => true) small exNodes [] [(0%nat, 256)]).
  assert (X : [(0%nat, 256)] = []); [apply H|discriminate].
  - intros n I D. cbn in I. repeat (destruct I as [<-|I]; [cbn in D; try discriminate; reflexivity|]). destruct I.
  - vm_compute. reflexivity.
Qed.
(** A graph with a CUDA operation runs on the card in a Lisp machine: false unless it was
    compiled before. *)
Theorem C119_lisp_uses_card_refuted : ~ (forall xs h, (exists n, In n (fst (grun (Some 1%nat) (fun _ => true) (fun _ => true) (fun _ _ => 10000) xs h)) /\ scuda n = true /\ operation n = true) ->
  exists m h', newLisp (Some 1%nat) (fun _ => true) (fun _ => true) (fun _ _ => 10000) (fst (grun (Some 1%nat) (fun _ => true) (fun _ => true) (fun _ _ => 10000) xs h)) h = (Ok m, h') /\ engines (lext m) <> []).
Proof.
  intro H. destruct (H [GNew (SN false false (Some 8) [] true false (Card 0))] []) as (m & h' & E & N).
  - eexists. split; [left; reflexivity|split; reflexivity].
  - vm_compute in E. injection E as <- <-. apply N. reflexivity.
Qed.

Example C119_ex_memory : calcMem exNodes = Ok (64, [0; 192]).
Proof. reflexivity. Qed.
Example C119_ex_needed : cardsNeeded exNodes 2 /\ usesCard exNodes /\ typed exNodes.
Proof.
  split; [|split].
  - split.
    { intro L. exists (nth 2 exNodes (SN true true None [] false false Cpu)), 1%nat. cbn. repeat split; auto. lia. }
    intros (n & j & I & O & L). cbn in I. repeat (destruct I as [<-|I]; [destruct j as [|[|j]]; cbn in O; try discriminate; lia|]). destruct I.
  - eexists _, 1%nat. split; [right; right; left; reflexivity|reflexivity].
  - intros n I D. cbn in I. repeat (destruct I as [<-|I]; [cbn in D; try discriminate; reflexivity|]). destruct I.
Qed.
Example C119_ex_cards : exists m, newLisp (Some 2%nat) (fun _ => true) (fun _ => true) (fun _ _ => 10000) exNodes [(1%nat, 7)] =
  (Ok m, [(1%nat, 7); (0%nat, 256); (1%nat, 736)]) /\ engines (lext m) = [Some 256; Some 736].
Proof. eexists. split; reflexivity. Qed.
(** Compiled first, the same graph as in the last refutation is on card 0. *)
Example C119_ex_compiled : let r := grun (Some 1%nat) (fun _ => true) (fun _ => true) (fun _ _ => 10000)
  [GNew (SN false false (Some 8) [] true false Cpu); GCompile (fun _ => true); GLisp] [] in
  r = ([SN false false (Some 8) [] true false (Card 0)], [(0%nat, 336)]).
Proof. reflexivity. Qed.
Example C119_ex_compile : forall nd gd ck fm,
  map son (fst (gdo nd gd ck fm ([SN false false (Some 8) [] true false Cpu; SN false false (Some 8) [] true false (Card 2);
    SN false false (Some 8) [] false false (Card 1); SN false false (Some 8) [] true false Cpu], []) (GCompile (fun i => Nat.ltb i 3))))
  = [Card 0; Card 2; Cpu; Cpu].
Proof. reflexivity. Qed.
Example C119_ex_force : lsorted (forceCPU (Lisp [SN false true (Some 8) [] false true (Card 0); SN false false (Some 8) [] true false (Card 0);
  SN false true (Some 8) [] false true Cpu; SN false true (Some 8) [] false true Cpu] (newExt []))) = [SN false false (Some 8) [] true false Cpu].
Proof. reflexivity. Qed.
Example C119_ex_tape : newTape (Some 1%nat) (fun _ => true) (fun _ => true) (fun _ _ => 10000) [false; true] [11] [] =
  (Ok (Ext [Some 283] true [(0%nat, 283)]), [(0%nat, 283)]).
Proof. reflexivity. Qed.

Print Assumptions C119_memory.
Print Assumptions C119_memory_error.
Print Assumptions C119_force_cpu.
Print Assumptions C119_cpu_only.
Print Assumptions C119_cards.
Print Assumptions C119_no_fallback.
Print Assumptions C119_untyped.
Print Assumptions C119_tape.
Print Assumptions C119_closed.
Print Assumptions C119_compile.
Print Assumptions C119_card_needs_compile.
Print Assumptions C119_falls_back_refuted.
Print Assumptions C119_gives_back_refuted.
Print Assumptions C119_lisp_uses_card_refuted.
