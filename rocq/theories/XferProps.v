(** C103: values on CUDA devices. *)
From Coq Require Import List Arith Bool ZArith Lia.
From Verif Require Import BroadcastModel XferModel XferSpec.
Import ListNotations.
Local Open Scope nat_scope.

Lemma overlay_bytes {B} (src dst : list B) n : n <= length src -> firstn n (overlay src dst n) = firstn n src.
Proof. intros L. unfold overlay. rewrite firstn_app, firstn_firstn, firstn_length. replace (n - Nat.min n (length src)) with 0 by lia. rewrite firstn_O, app_nil_r, Nat.min_id. reflexivity. Qed.

Section Props.
Variable B : Type.
Variable zeroB : B.
Variable getBlock : Z -> list nat -> nat -> option nat.
(** Blocks in use are not handed out again (C30). *)
Hypothesis getFresh : forall d used n a, getBlock d used n = Some a -> ~ In a used.
Notation transfer := (transfer getBlock zeroB).
Notation body := (transferBody getBlock zeroB).
Notation size v := (fold_right Nat.mul 1 (xshape v) * entrySize v).

Lemma flush_enqueue (s : xst B) c : flush (enqueue s c) =
  let s' := perform (flush s) c in XS (hostM s') (hostN s') (devM s') (usedM s') [] (engines s').
Proof. unfold flush, enqueue. cbn [pend]. rewrite fold_left_app. cbn [fold_left].
  assert (E : forall l t, fold_left perform l (XS (hostM t) (hostN t) (devM t) (usedM t) (pend s ++ [c]) (engines t))
     = let r := fold_left (@perform B) l t in XS (hostM r) (hostN r) (devM r) (usedM r) (pend s ++ [c]) (engines r)).
  { induction l as [|x l IH]; intros t; [reflexivity|]. cbn [fold_left]. rewrite <- IH. f_equal. destruct x; reflexivity. }
  rewrite E. cbv zeta. destruct c; reflexivity. Qed.
(** Copies depend on memory alone. *)
Lemma flush_used (s : xst B) u : flush (XS (hostM s) (hostN s) (devM s) u (pend s) (engines s)) =
  let r := flush s in XS (hostM r) (hostN r) (devM r) u [] (engines r).
Proof.
  unfold flush. cbn [pend]. assert (E : forall l t, fold_left perform l (XS (hostM t) (hostN t) (devM t) u (pend t) (engines t))
     = let r := fold_left (@perform B) l t in XS (hostM r) (hostN r) (devM r) u (pend r) (engines r)).
  { induction l as [|x l IH]; intros t; [reflexivity|]. cbn [fold_left]. rewrite <- IH. f_equal. destruct x; reflexivity. }
  rewrite E. reflexivity.
Qed.

Lemma engine_in (s : xst B) d : (0 <= d)%Z -> (d < Z.of_nat (engines s))%Z -> engineAt s d = true.
Proof. intros H1 H2. unfold engineAt. apply andb_true_iff. split; [apply Z.leb_le; exact H1|apply Z.ltb_lt; exact H2]. Qed.
Lemma not_cpu d : (0 <= d)%Z -> (d =? CPUdev)%Z = false.
Proof. intros. apply Z.eqb_neq. unfold CPUdev. lia. Qed.

(** The transfer with a flush at its end or without one. *)
Definition transferF (s : xst B) (t f : Z) (v : xval) (fl : bool) : xst B * res xval :=
  let (s', r) := body s t f v in (if fl then flush s' else s', r).
Lemma transfer_F : forall w (s : xst B) t f v sync, transfer w s t f v sync = transferF s t f v (sync && w).
Proof. intros. unfold XferModel.transfer, transferF, signal. destruct (body s t f v). destruct sync, w; reflexivity. Qed.
Lemma transferF_flush : forall (s : xst B) t f v fl s' r, transferF s t f v fl = (s', r) ->
  transferF s t f v true = (flush s', r).
Proof. intros s t f v fl s' r. unfold transferF. destruct (body s t f v) as [s1 r1]. intros E. injection E as <- <-. destruct fl; reflexivity. Qed.

(** As if Signal always worked. To a device: shape and entries stay, in a block that was not in use; the copy is made when
    the queue is emptied. *)
Lemma to_device : forall (s : xst B) d v h a sync, (0 <= d)%Z -> (d < Z.of_nat (engines s))%Z ->
  xat v = OnHost h -> backed (flush s) v -> (xshape v = [] -> scalarable v = true) -> (xshape v <> [] -> isTensorTy v = true) ->
  getBlock d (usedM s d) (size v) = Some a ->
  exists s' r, transferF s d CPUdev v sync = (s', Ok r) /\ xat r = OnDev d a /\ ~ In a (usedM s d) /\ In a (usedM s' d) /\
    xshape r = xshape v /\ entrySize r = entrySize v /\
    bytes (flush s') r = bytes (flush s) v /\ hostM (flush s') = hostM (flush s) /\
    (forall e b, (e, b) <> (d, a) -> devM (flush s') e b = devM (flush s) e b) /\
    (sync = true -> pend s' = []).
Proof.
  intros s d v h a sync D0 D1 Hv Bk Sc Tt G.
  assert (R : exists r, makeValueFromMem (isTensorTy v) v (OnDev d a) = Ok r /\ xat r = OnDev d a /\ xshape r = xshape v /\ entrySize r = entrySize v).
  { unfold makeValueFromMem. destruct (xshape v) as [|x l] eqn:E.
    - rewrite (Sc eq_refl). eexists. split; [destruct (isTensorTy v); reflexivity|]. repeat split.
    - rewrite Tt by discriminate. eexists. split; [reflexivity|]. repeat split. }
  destruct R as (r & R & Ra & Rs & Re).
  set (s1 := XS (hostM s) (hostN s) (devM s) (fun e => if (e =? d)%Z then a :: usedM s d else usedM s e) (pend s) (engines s)).
  set (s2 := enqueue s1 (HtoD d a h (size v))).
  assert (Bd : body s d CPUdev v = (s2, Ok r)).
  { unfold transferBody. rewrite Z.eqb_refl, (not_cpu d D0). cbn [negb andb]. destruct (Z.ltb_spec (Z.of_nat (engines s)) d); [lia|].
    rewrite (engine_in s d D0 D1). cbn [negb]. unfold extGet. destruct (Z.leb_spec (Z.of_nat (engines s)) d); [lia|].
    rewrite (engine_in s d D0 D1). cbn [negb]. unfold calcMemSize. rewrite G, Hv, R. reflexivity. }
  assert (F : flush s2 = let q := flush s in XS (hostM q) (hostN q) (setD (devM q) d a (overlay (hostM q h) (devM q d a) (size v))) (fun e => if (e =? d)%Z then a :: usedM s d else usedM s e) [] (engines q)).
  { unfold s2. rewrite flush_enqueue. unfold s1. rewrite flush_used. reflexivity. }
  assert (Fl : flush (flush s2) = flush s2) by reflexivity.
  exists (if sync then flush s2 else s2), r. unfold transferF. rewrite Bd. split; [reflexivity|]. split; [exact Ra|]. split; [exact (getFresh _ _ _ _ G)|].
  assert (FF : flush (if sync then flush s2 else s2) = flush s2) by (destruct sync; [exact Fl|reflexivity]). rewrite FF, F. cbv zeta.
  split; [|split; [exact Rs|split; [exact Re|split; [|split; [reflexivity|split]]]]].
  - destruct sync; unfold s2, s1; cbn; rewrite Z.eqb_refl; left; reflexivity.
  - unfold bytes. rewrite Rs, Re, Ra, Hv. cbn [memoryOf devM hostM]. unfold setD. rewrite Z.eqb_refl, Nat.eqb_refl. cbn [andb].
    apply overlay_bytes. unfold backed in Bk. rewrite Hv in Bk. exact Bk.
  - intros e b Ne. cbn [devM]. unfold setD. destruct (Z.eqb_spec e d), (Nat.eqb_spec b a); cbn [andb]; try reflexivity. subst. contradiction.
  - intros ->. reflexivity.
Qed.
(** From a device, with the wait: the entries are in fresh memory of the host. *)
Lemma to_host : forall (s : xst B) d v a, (0 <= d)%Z -> (d < Z.of_nat (engines s))%Z ->
  xat v = OnDev d a -> backed (flush s) v ->
  (forall c, In c (pend s) -> match c with HtoD _ _ h _ | DtoH h _ _ _ => h < hostN s end) ->
  exists s' r, transferF s CPUdev d v true = (s', Ok r) /\ xat r = OnHost (hostN s) /\ xshape r = xshape v /\ entrySize r = entrySize v /\
    bytes s' r = bytes (flush s) v /\ pend s' = [] /\ (forall h, h < hostN s -> hostM s' h = hostM (flush s) h) /\ (forall e b, devM s' e b = devM (flush s) e b).
Proof.
  intros s d v a D0 D1 Hv Bk Pd.
  set (s1 := XS (setH (hostM s) (hostN s) (repeat zeroB (calcMemSize v))) (S (hostN s)) (devM s) (usedM s) (pend s) (engines s)).
  set (s2 := enqueue s1 (DtoH (hostN s) d a (size v))).
  assert (Bd : body s CPUdev d v = (s2, Ok (XV (isTensorTy v) (entrySize v) (scalarable v) (xshape v) (OnHost (hostN s))))).
  { unfold transferBody. rewrite Z.eqb_refl, (not_cpu d D0). cbn [negb andb]. destruct (Z.ltb_spec (Z.of_nat (engines s)) d); [lia|].
    rewrite (engine_in s d D0 D1). cbn [negb makeValue]. unfold makeValue. rewrite Hv. reflexivity. }
  assert (E1 : forall l t, (forall c, In c l -> match c with HtoD _ _ h _ | DtoH h _ _ _ => h < hostN s end) ->
     forall t', (forall h, h < hostN s -> hostM t' h = hostM t h) -> (forall e b, devM t' e b = devM t e b) ->
     (forall h, h < hostN s -> hostM (fold_left (@perform B) l t') h = hostM (fold_left (@perform B) l t) h) /\
     (forall e b, devM (fold_left (@perform B) l t') e b = devM (fold_left (@perform B) l t) e b)).
  { induction l as [|c l IH]; intros t Lt t' Hh Hd; [split; assumption|]. cbn [fold_left].
    apply IH; [intros c' I; apply Lt; right; exact I| |]; pose proof (Lt c (or_introl eq_refl)) as Lc; destruct c as [d' a' h' n'|h' d' a' n']; cbn [perform hostM devM].
    - exact Hh.
    - intros h Hl. unfold setH. rewrite Hd, (Hh h' Lc). destruct (h =? h'); [reflexivity|apply Hh; exact Hl].
    - intros e b. unfold setD. rewrite (Hh h' Lc), Hd. destruct ((e =? d')%Z && (b =? a')); [reflexivity|apply Hd].
    - exact Hd. }
  assert (Q : (forall h, h < hostN s -> hostM (flush s1) h = hostM (flush s) h) /\ (forall e b, devM (flush s1) e b = devM (flush s) e b)).
  { unfold flush. cbn [hostM devM]. apply E1; [exact Pd| |reflexivity]. intros h Hl. unfold s1. cbn [hostM]. unfold setH. destruct (Nat.eqb_spec h (hostN s)); [lia|reflexivity]. }
  destruct Q as [Q1 Q2].
  eexists _, _. unfold transferF. rewrite Bd. split; [reflexivity|]. unfold s2. rewrite flush_enqueue. cbv zeta. cbn [perform hostM hostN devM usedM engines pend xat xshape entrySize].
  split; [reflexivity|]. split; [reflexivity|]. split; [reflexivity|]. split; [|split; [reflexivity|split]].
  - unfold bytes. cbn [xshape entrySize xat memoryOf hostM]. unfold setH at 1. rewrite Nat.eqb_refl, Hv. cbn [memoryOf].
    rewrite overlay_bytes, Q2; [reflexivity|]. rewrite Q2. unfold backed in Bk. rewrite Hv in Bk. exact Bk.
  - intros h Hl. unfold setH. destruct (Nat.eqb_spec h (hostN s)); [lia|]. apply Q1, Hl.
  - exact Q2.
Qed.
(** There and back. *)
Lemma round_trip : forall (s : xst B) d v h a sync, (0 <= d)%Z -> (d < Z.of_nat (engines s))%Z ->
  xat v = OnHost h -> backed (flush s) v -> (xshape v = [] -> scalarable v = true) -> (xshape v <> [] -> isTensorTy v = true) ->
  getBlock d (usedM s d) (size v) = Some a -> pend s = [] -> h < hostN s ->
  exists s1 r1 s2 r2, transferF s d CPUdev v sync = (s1, Ok r1) /\ transferF s1 CPUdev d r1 true = (s2, Ok r2) /\
    xshape r2 = xshape v /\ bytes s2 r2 = bytes s v /\ liesOn r1 d /\ liesOn r2 CPUdev /\ xat r2 <> xat v.
Proof.
  intros s d v h a sync D0 D1 Hv Bk Sc Tt G Pe Hh.
  destruct (to_device s d v h a sync D0 D1 Hv Bk Sc Tt G) as (s1 & r1 & T1 & A1 & _ & _ & S1 & E1 & B1 & Ho & _ & P1).
  assert (I : engines s1 = engines s /\ hostN s1 = hostN s /\ (forall c, In c (pend s1) -> match c with HtoD _ _ h _ | DtoH h _ _ _ => h < hostN s1 end)).
  { clear - T1 Hv D0 D1 G Pe Hh. unfold transferF, transferBody in T1. rewrite Z.eqb_refl, (not_cpu d D0) in T1. cbn [negb andb] in T1.
    destruct (Z.ltb_spec (Z.of_nat (engines s)) d); [lia|]. rewrite (engine_in s d D0 D1) in T1. cbn [negb] in T1. unfold extGet in T1.
    destruct (Z.leb_spec (Z.of_nat (engines s)) d); [lia|]. rewrite (engine_in s d D0 D1) in T1. cbn [negb] in T1. unfold calcMemSize in T1. rewrite G, Hv in T1.
    injection T1 as <- _. unfold flush, enqueue. cbn [pend engines hostN]. rewrite Pe. destruct sync; cbn.
    - split; [reflexivity|]. split; [reflexivity|]. intros c [].
    - split; [reflexivity|]. split; [reflexivity|]. intros c [<-|[]]. exact Hh. }
  destruct I as (I1 & I2 & I3).
  assert (Bk1 : backed (flush s1) r1).
  { unfold backed. rewrite S1, E1. destruct (Nat.le_gt_cases (size v) (length (memoryOf (flush s1) (xat r1)))) as [L|L]; [exact L|]. exfalso.
    apply (f_equal (@length B)) in B1. unfold bytes in B1. rewrite !firstn_length, S1, E1 in B1. unfold backed in Bk. lia. }
  destruct (to_host s1 d r1 a D0 ltac:(rewrite I1; exact D1) A1 Bk1 I3) as (s2 & r2 & T2 & A2 & S2 & E2 & B2 & _ & _ & _).
  exists s1, r1, s2, r2. split; [exact T1|]. split; [exact T2|]. split; [congruence|]. split; [rewrite B2, B1; unfold bytes, flush; rewrite Pe; destruct (xat v); reflexivity|].
  split; [unfold liesOn; rewrite A1; reflexivity|]. split; [unfold liesOn; rewrite A2; reflexivity|]. rewrite A2, Hv, I2. intro E. injection E as E. lia.
Qed.
(** Without the wait the device receives what the host holds when the queue is emptied, not when
    the transfer was asked for. *)
Lemma no_snapshot : forall (s : xst B) d v h a l, (0 <= d)%Z -> (d < Z.of_nat (engines s))%Z ->
  xat v = OnHost h -> backed (flush s) v -> (xshape v = [] -> scalarable v = true) -> (xshape v <> [] -> isTensorTy v = true) ->
  getBlock d (usedM s d) (size v) = Some a -> pend s = [] -> size v <= length l ->
  exists s' r, transferF s d CPUdev v false = (s', Ok r) /\
    bytes (flush (hostWrite s' h l)) r = firstn (size v) l /\ bytes (hostWrite (flush s') h l) r = bytes s v.
Proof.
  intros s d v h a l D0 D1 Hv Bk Sc Tt G Pe L.
  destruct (to_device s d v h a false D0 D1 Hv Bk Sc Tt G) as (s1 & r1 & T1 & A1 & _ & _ & S1 & E1 & B1 & Ho & _ & P1).
  exists s1, r1. split; [exact T1|]. split.
  - unfold transferF, transferBody in T1. rewrite Z.eqb_refl, (not_cpu d D0) in T1. cbn [negb andb] in T1.
    destruct (Z.ltb_spec (Z.of_nat (engines s)) d); [lia|]. rewrite (engine_in s d D0 D1) in T1. cbn [negb] in T1. unfold extGet in T1.
    destruct (Z.leb_spec (Z.of_nat (engines s)) d); [lia|]. rewrite (engine_in s d D0 D1) in T1. cbn [negb] in T1. unfold calcMemSize in T1. rewrite G, Hv in T1.
    injection T1 as <- _. unfold bytes. rewrite S1, E1, A1. unfold hostWrite, enqueue, flush. cbn [pend hostM devM hostN usedM engines]. rewrite Pe.
    cbn [app fold_left perform memoryOf devM hostM]. unfold setD. rewrite Z.eqb_refl, !Nat.eqb_refl. cbn [andb]. apply overlay_bytes. exact L.
  - transitivity (bytes (flush s1) r1); [unfold bytes; rewrite A1; reflexivity|]. rewrite B1. unfold bytes, flush. rewrite Pe. destruct (xat v); reflexivity.
Qed.
(** To a device: shape and entries stay, in a block that was not in use; the copy is made when
    the queue is emptied. *)
Theorem C103_to_device : forall w (s : xst B) d v h a sync, (0 <= d)%Z -> (d < Z.of_nat (engines s))%Z ->
  xat v = OnHost h -> backed (flush s) v -> (xshape v = [] -> scalarable v = true) -> (xshape v <> [] -> isTensorTy v = true) ->
  getBlock d (usedM s d) (size v) = Some a ->
  exists s' r, transfer w s d CPUdev v sync = (s', Ok r) /\ xat r = OnDev d a /\ ~ In a (usedM s d) /\ In a (usedM s' d) /\
    xshape r = xshape v /\ entrySize r = entrySize v /\
    bytes (flush s') r = bytes (flush s) v /\ hostM (flush s') = hostM (flush s) /\
    (forall e b, (e, b) <> (d, a) -> devM (flush s') e b = devM (flush s) e b) /\
    (sync = true -> w = true -> pend s' = []).
Proof.
  intros w s d v h a sync D0 D1 Hv Bk Sc Tt G. rewrite transfer_F.
  destruct (to_device s d v h a (sync && w) D0 D1 Hv Bk Sc Tt G) as (s' & r & T & A & N & I & S1 & E1 & B1 & Ho & De & P).
  exists s', r. repeat (split; [assumption|]). intros -> ->. apply P. reflexivity.
Qed.
(** From a device: once the queue is emptied the entries are in fresh memory of the host; it is
    emptied at the return if the wait was asked for and the channel for it is there. *)
Theorem C103_to_host : forall w sync (s : xst B) d v a, (0 <= d)%Z -> (d < Z.of_nat (engines s))%Z ->
  xat v = OnDev d a -> backed (flush s) v ->
  (forall c, In c (pend s) -> match c with HtoD _ _ h _ | DtoH h _ _ _ => h < hostN s end) ->
  exists s' r, transfer w s CPUdev d v sync = (s', Ok r) /\ xat r = OnHost (hostN s) /\ xshape r = xshape v /\ entrySize r = entrySize v /\
    bytes (flush s') r = bytes (flush s) v /\ (sync = true -> w = true -> pend s' = [] /\ s' = flush s') /\
    (forall h, h < hostN s -> hostM (flush s') h = hostM (flush s) h) /\ (forall e b, devM (flush s') e b = devM (flush s) e b).
Proof.
  intros w sync s d v a D0 D1 Hv Bk Pd. rewrite transfer_F.
  destruct (to_host s d v a D0 D1 Hv Bk Pd) as (s1 & r & T & A & S1 & E1 & B1 & _ & H1 & D2).
  destruct (transferF s CPUdev d v (sync && w)) as [s' r'] eqn:T'.
  pose proof (transferF_flush _ _ _ _ _ _ _ T') as F. rewrite T in F. injection F as Es Er. subst s1 r'.
  exists s', r. repeat (split; [first [assumption | reflexivity]|]). split; [|split; assumption].
  intros -> ->. cbn [andb] in T'. rewrite T in T'. injection T' as <-. split; reflexivity.
Qed.
(** There and back, when the queue has been emptied. *)
Theorem C103_round_trip : forall w (s : xst B) d v h a sync sync2, (0 <= d)%Z -> (d < Z.of_nat (engines s))%Z ->
  xat v = OnHost h -> backed (flush s) v -> (xshape v = [] -> scalarable v = true) -> (xshape v <> [] -> isTensorTy v = true) ->
  getBlock d (usedM s d) (size v) = Some a -> pend s = [] -> h < hostN s ->
  exists s1 r1 s2 r2, transfer w s d CPUdev v sync = (s1, Ok r1) /\ transfer w s1 CPUdev d r1 sync2 = (s2, Ok r2) /\
    xshape r2 = xshape v /\ bytes (flush s2) r2 = bytes s v /\ liesOn r1 d /\ liesOn r2 CPUdev /\ xat r2 <> xat v.
Proof.
  intros w s d v h a sync sync2 D0 D1 Hv Bk Sc Tt G Pe Hh. 
  destruct (round_trip s d v h a (sync && w) D0 D1 Hv Bk Sc Tt G Pe Hh) as (s1 & r1 & s2 & r2 & T1 & T2 & R).
  destruct (transferF s1 CPUdev d r1 (sync2 && w)) as [s3 r3] eqn:T3.
  pose proof (transferF_flush _ _ _ _ _ _ _ T3) as F. rewrite T2 in F. injection F as Es Er. subst s2 r3.
  exists s1, r1, s3, r2. rewrite !transfer_F. split; [exact T1|]. split; [exact T3|]. exact R.
Qed.
(** Without the wait the device receives what the host holds when the queue is emptied, not when
    the transfer was asked for. *)
Theorem C103_no_snapshot : forall w (s : xst B) d v h a l, (0 <= d)%Z -> (d < Z.of_nat (engines s))%Z ->
  xat v = OnHost h -> backed (flush s) v -> (xshape v = [] -> scalarable v = true) -> (xshape v <> [] -> isTensorTy v = true) ->
  getBlock d (usedM s d) (size v) = Some a -> pend s = [] -> size v <= length l ->
  exists s' r, transfer w s d CPUdev v false = (s', Ok r) /\
    bytes (flush (hostWrite s' h l)) r = firstn (size v) l /\ bytes (hostWrite (flush s') h l) r = bytes s v.
Proof. intros w. intros. rewrite transfer_F. cbn [andb]. eapply no_snapshot; eassumption. Qed.
(** In a CUDA build nothing ever makes the channel, so the wait is none: a synchronous transfer
    is an asynchronous one, and a value brought to the host is zeros until something else
    empties the queue. *)
Theorem C103_no_wait : forall l (s : xst B) t f v,
  transfer (chanMade (runExt l)) s t f v true = transfer (chanMade (runExt l)) s t f v false.
Proof.
  intros l s t f v. rewrite !transfer_F. replace (chanMade (runExt l)) with false; [reflexivity|].
  symmetry. unfold runExt. enough (Q : forall e, chanMade e = false -> chanMade (fold_left stepExt l e) = false) by now apply Q.
  induction l as [|o l IH]; intros e E; [exact E|]. cbn [fold_left]. apply IH. destruct e as [c i n]. cbn in E. subst c.
  destruct o; cbn; try reflexivity; destruct i; reflexivity.
Qed.
Theorem C103_no_wait_zeros : forall l (s : xst B) d v a, (0 <= d)%Z -> (d < Z.of_nat (engines s))%Z -> xat v = OnDev d a ->
  exists s' r, transfer (chanMade (runExt l)) s CPUdev d v true = (s', Ok r) /\ bytes s' r = repeat zeroB (size v) /\ pend s' <> [].
Proof.
  intros l s d v a D0 D1 Hv. rewrite C103_no_wait, transfer_F. cbn [andb].
  unfold transferF, transferBody. rewrite Z.eqb_refl, (not_cpu d D0). cbn [negb andb]. destruct (Z.ltb_spec (Z.of_nat (engines s)) d); [lia|].
  rewrite (engine_in s d D0 D1). cbn [negb]. unfold makeValue. rewrite Hv. cbn [xat].
  eexists _, _. split; [reflexivity|]. split.
  - unfold bytes, enqueue, calcMemSize. cbn [xshape entrySize xat memoryOf hostM]. unfold setH. rewrite Nat.eqb_refl.
    apply firstn_all2. rewrite repeat_length. lia.
  - cbn [enqueue pend]. destruct (pend s); discriminate.
Qed.
(** Which transfers are refused, and how: a device beyond the last one is an error, except the
    first such, which is a panic; from card to card is a panic; to where it is, it is the value
    itself, also on a device there is not. *)
Theorem C103_refused : forall w (s : xst B) d e v sync,
  ((Z.of_nat (engines s) < d)%Z -> snd (transfer w s d CPUdev v sync) = Err /\ snd (transfer w s CPUdev d v sync) = Err) /\
  (d = Z.of_nat (engines s) -> snd (transfer w s d CPUdev v sync) = Panic /\ snd (transfer w s CPUdev d v sync) = Panic) /\
  (d <> e -> d <> CPUdev -> e <> CPUdev -> snd (transfer w s d e v sync) = Panic) /\
  snd (transfer w s d d v sync) = Ok v.
Proof.
  intros w s d e v sync. unfold XferModel.transfer, transferBody. split; [|split; [|split]].
  - intros H. rewrite Z.eqb_refl, (not_cpu d) by lia. cbn [negb andb]. destruct (Z.ltb_spec (Z.of_nat (engines s)) d); [|lia]. split; reflexivity.
  - intros H. rewrite Z.eqb_refl, (not_cpu d) by lia. cbn [negb andb]. destruct (Z.ltb_spec (Z.of_nat (engines s)) d); [lia|].
    assert (E : engineAt s d = false) by (unfold engineAt; apply andb_false_iff; right; apply Z.ltb_ge; lia). rewrite E. split; reflexivity.
  - intros N Nd Ne. apply Z.eqb_neq in Nd, Ne. rewrite Nd, Ne. cbn [negb andb]. destruct (Z.eqb_spec e d); [congruence|reflexivity].
  - destruct (Z.eqb_spec d CPUdev); cbn [negb andb]; rewrite ?Z.eqb_refl; reflexivity.
Qed.
(** ValueOnDevice: the value, on the device asked for if it was where the node says; memory is
    reported as allocated exactly if it was. *)
Theorem C103_value_on_device : forall w (s : xst B) n d s' r al,
  (forall v, valueOf n = Some v -> liesOn v (dataOf n)) ->
  valueOnDevice getBlock zeroB w s n d = (s', Ok (Some r, al)) ->
  liesOn r d /\ (al = true <-> dataOf n <> d /\ d <> CPUdev) /\ (al = false -> dataOf n = d -> valueOf n = Some r /\ s' = s).
Proof.
  intros w s n d s' r al LO E. unfold valueOnDevice in E. destruct (Z.eqb_spec (dataOf n) d) as [Eq|Ne].
  - injection E as <- E <-. split; [rewrite <- Eq; apply LO; exact E|]. split; [split; [discriminate|intros [N _]; contradiction]|]. intros _ _. split; [exact E|reflexivity].
  - destruct (valueOf n) as [v|]; [|discriminate]. specialize (LO v eq_refl).
    destruct (transfer w s d (dataOf n) v (d =? CPUdev)%Z) as [s1 [w1| |]] eqn:T; try discriminate. injection E as <- <- <-.
    split; [|split; [destruct (Z.eqb_spec d CPUdev); cbn; split; try discriminate; intros; [destruct H; contradiction|split; assumption|reflexivity]|intros _ Q; contradiction]].
    unfold XferModel.transfer, transferBody in T.
    destruct (Z.eqb_spec (dataOf n) CPUdev) as [Ec|Nc], (Z.eqb_spec d CPUdev) as [Dc|Nd]; cbn [negb andb] in T; try congruence.
    + destruct ((Z.of_nat (engines s) <? d)%Z); [discriminate|]. destruct (engineAt s d); [|discriminate]. cbn [negb] in T.
      destruct (extGet getBlock s d (calcMemSize v)) as [[s2 a]| |]; try discriminate. destruct (xat v); [|discriminate]. injection T as _ T.
      unfold makeValueFromMem in T. destruct (xshape v), (isTensorTy v), (scalarable v); try discriminate; injection T as <-; reflexivity.
    + destruct ((Z.of_nat (engines s) <? dataOf n)%Z); [discriminate|]. destruct (engineAt s (dataOf n)); [|discriminate]. cbn [negb makeValue] in T. unfold makeValue in T. cbn [xat] in T.
      destruct (xat v); [discriminate|]. injection T as _ T. subst w1. exact Dc.
    + destruct (Z.eqb_spec (dataOf n) d); [contradiction|discriminate].
Qed.
(** From a device to the host ValueOnDevice gives a value that has the bytes once the queue is
    emptied; when it returns, in a CUDA build, it is zeros. *)
Theorem C103_value_waits : forall w (s : xst B) n v a, (0 <= dataOf n)%Z -> (dataOf n < Z.of_nat (engines s))%Z ->
  valueOf n = Some v -> xat v = OnDev (dataOf n) a -> backed (flush s) v ->
  (forall c, In c (pend s) -> match c with HtoD _ _ h _ | DtoH h _ _ _ => h < hostN s end) ->
  exists s' r, valueOnDevice getBlock zeroB w s n CPUdev = (s', Ok (Some r, false)) /\ xat r = OnHost (hostN s) /\ xshape r = xshape v /\
    bytes (flush s') r = bytes (flush s) v /\ (w = true -> pend s' = [] /\ s' = flush s').
Proof.
  intros w s n v a D0 D1 V Hv Bk Pd. destruct (C103_to_host w true s (dataOf n) v a D0 D1 Hv Bk Pd) as (s' & r & T & A & Sh & _ & By & Pe & _).
  exists s', r. unfold valueOnDevice. rewrite (not_cpu _ D0), V, Z.eqb_refl, T. split; [reflexivity|]. repeat (split; [assumption|]). intros W. apply Pe; [reflexivity|exact W].
Qed.
Theorem C103_value_waits_refuted : forall l (s : xst B) n v a, (0 <= dataOf n)%Z -> (dataOf n < Z.of_nat (engines s))%Z ->
  valueOf n = Some v -> xat v = OnDev (dataOf n) a ->
  exists s' r, valueOnDevice getBlock zeroB (chanMade (runExt l)) s n CPUdev = (s', Ok (Some r, false)) /\ bytes s' r = repeat zeroB (size v).
Proof.
  intros l s n v a D0 D1 V Hv. destruct (C103_no_wait_zeros l s (dataOf n) v a D0 D1 Hv) as (s' & r & T & By & _).
  exists s', r. unfold valueOnDevice. rewrite (not_cpu _ D0), V, Z.eqb_refl, T. split; [reflexivity|exact By].
Qed.
(** GradOnDevice of a node with a dual value is ValueOnDevice of its derivative, which lies where
    the node's value does; without a dual value it is that of the gradient node unless the node
    is on the device already. Without any gradient it is an error, except that a dual value
    without a derivative on the device already gives nil. *)
Theorem C103_gradient : forall w0 (s : xst B) n d x v w g,
  gradOnDevice getBlock zeroB w0 s (XN x v true (Some w) g) d = valueOnDevice getBlock zeroB w0 s (XN x (Some w) false None None) d /\
  (x <> d -> gradOnDevice getBlock zeroB w0 s (XN x v false (Some w) (Some n)) d = valueOnDevice getBlock zeroB w0 s n d) /\
  gradOnDevice getBlock zeroB w0 s (XN x v false (Some w) None) d = (s, Err) /\
  (x <> d -> gradOnDevice getBlock zeroB w0 s (XN x v true None g) d = (s, Err)) /\
  (x = d -> gradOnDevice getBlock zeroB w0 s (XN x v true None g) d = (s, Ok (None, false))).
Proof.
  intros. unfold gradOnDevice, valueOnDevice. cbn [dataOf valueOf gradOf].
  destruct (Z.eqb_spec x d) as [E|E]; (split; [reflexivity|]; split; [intros N; try contradiction; reflexivity|]; split; [reflexivity|]; split; [intros N; try contradiction; reflexivity|intros N; try contradiction; reflexivity]).
Qed.
(** A block given back is free again and nothing else changes; for a device that is not there
    nothing happens. *)
Theorem C103_put : forall (s : xst B) d a,
  ((0 <= d < Z.of_nat (engines s))%Z -> exists s', extPut s d a = Ok s' /\ (forall e b, In b (usedM s' e) <-> In b (usedM s e) /\ (e, b) <> (d, a)) /\
      hostM s' = hostM s /\ devM s' = devM s /\ pend s' = pend s) /\
  ((Z.of_nat (engines s) <= d)%Z -> extPut s d a = Ok s) /\ ((d < 0)%Z -> extPut s d a = Panic).
Proof.
  intros s d a. unfold extPut. split; [|split].
  - intros [D0 D1]. destruct (Z.leb_spec (Z.of_nat (engines s)) d); [lia|]. rewrite (engine_in s d D0 D1). cbn [negb]. eexists. split; [reflexivity|]. cbn [usedM hostM devM pend]. split; [|repeat split].
    intros e b. destruct (Z.eqb_spec e d) as [->|N].
    + rewrite filter_In. destruct (Nat.eqb_spec b a) as [->|Nb]; cbn [negb]; split; intros [I1 I2]; split; try assumption; try discriminate; try reflexivity; try congruence.
    + split; [intros I; split; [exact I|congruence]|intros [I _]; exact I].
  - intros L. destruct (Z.leb_spec (Z.of_nat (engines s)) d); [reflexivity|lia].
  - intros L. destruct (Z.leb_spec (Z.of_nat (engines s)) d); [lia|]. unfold engineAt. destruct (Z.leb_spec 0 d); [lia|]. reflexivity.
Qed.
(** A scalar of a dtype that has no scalar type: an error, and the block stays in use. *)
Theorem C103_leak : forall w (s : xst B) d v h a, (0 <= d)%Z -> (d < Z.of_nat (engines s))%Z -> xat v = OnHost h ->
  xshape v = [] -> scalarable v = false -> getBlock d (usedM s d) (size v) = Some a ->
  exists s', transfer w s d CPUdev v false = (s', Err) /\ In a (usedM s' d) /\ ~ In a (usedM s d).
Proof.
  intros w s d v h a D0 D1 Hv Sh Sc G. eexists. unfold XferModel.transfer, transferBody. rewrite Z.eqb_refl, (not_cpu d D0). cbn [negb andb].
  destruct (Z.ltb_spec (Z.of_nat (engines s)) d); [lia|]. rewrite (engine_in s d D0 D1). cbn [negb]. unfold extGet. destruct (Z.leb_spec (Z.of_nat (engines s)) d); [lia|].
  rewrite (engine_in s d D0 D1). cbn [negb]. unfold calcMemSize. rewrite G, Hv. unfold makeValueFromMem. rewrite Sh, Sc.
  split; [reflexivity|]. split; [cbn; rewrite Z.eqb_refl; left; reflexivity|exact (getFresh _ _ _ _ G)].
Qed.
(** A value made from memory with a dtype for its type is a scalar, whatever the shape. *)
Theorem C103_scalar_from_memory : forall v p, scalarable v = true ->
  exists r, makeValueFromMem false v p = Ok r /\ xshape r = [] /\ xat r = p.
Proof. intros v p S. unfold makeValueFromMem. rewrite S. destruct (xshape v); eexists; repeat split. Qed.
End Props.

(** GradOnDevice need not give a value on the device: if the node is there its gradient node is
    not asked where it is. *)
Definition exGrad : xnode := XN CPUdev (Some (XV true 8 true [2] (OnHost 0))) false None (Some (XN 0 (Some (XV true 8 true [2] (OnDev 0 5))) false None None)).
Theorem C103_gradient_elsewhere_refuted : ~ (forall B (zeroB : B) getBlock w (s : xst B) n d s' r al,
  (forall v, valueOf n = Some v -> liesOn v (dataOf n)) -> (forall g v, (exists x y z w, n = XN x y z w (Some g)) -> valueOf g = Some v -> liesOn v (dataOf g)) ->
  gradOnDevice getBlock zeroB w s n d = (s', Ok (Some r, al)) -> liesOn r d).
Proof.
  intro H. set (s0 := XS (fun _ => repeat 0 16) 1 (fun _ _ => repeat 0 16) (fun _ => [5]) [] 1).
  specialize (H nat 0 (fun _ _ _ => None) false s0 exGrad CPUdev s0 (XV true 8 true [2] (OnDev 0 5)) false).
  assert (X : liesOn (XV true 8 true [2] (OnDev 0 5)) CPUdev).
  { apply H; [intros v E; injection E as <-; reflexivity| |reflexivity]. intros g v (x & y & z & w & E) V. injection E as _ _ _ _ <-. injection V as <-. reflexivity. }
  discriminate X.
Qed.
Print Assumptions C103_to_device.
Print Assumptions C103_to_host.
Print Assumptions C103_round_trip.
Print Assumptions C103_no_snapshot.
Print Assumptions C103_refused.
Print Assumptions C103_value_on_device.
Print Assumptions C103_value_waits.
Print Assumptions C103_value_waits_refuted.
Print Assumptions C103_no_wait.
Print Assumptions C103_no_wait_zeros.
Print Assumptions C103_gradient.
Print Assumptions C103_put.
Print Assumptions C103_leak.
Print Assumptions C103_scalar_from_memory.
Print Assumptions C103_gradient_elsewhere_refuted.

(** A matrix to card 0 and back; block 1 is handed out because block 0 is in use. *)
Definition exGet (d : Z) (used : list nat) (n : nat) : option nat := Some (S (list_max used)).
Lemma exGet_fresh : forall d used n a, exGet d used n = Some a -> ~ In a used.
Proof. intros d used n a E I. injection E as <-. assert (A := proj1 (list_max_le used (list_max used)) (le_n _)). apply (proj1 (Forall_forall _ _) A) in I. lia. Qed.
Definition exX : xst nat := XS (fun h => if h =? 0 then [7; 8; 9; 10] else []) 1 (fun _ _ => repeat 0 10) (fun _ => [0]) [] 1.
Example C103_case :
  let (s1, r1) := XferModel.transfer exGet 0 false exX 0 CPUdev (XV true 1 true [2; 2] (OnHost 0)) false in
  r1 = Ok (XV true 1 true [2; 2] (OnDev 0 1)) /\ devM s1 0%Z 1 = repeat 0 10 /\ devM (flush s1) 0%Z 1 = [7; 8; 9; 10; 0; 0; 0; 0; 0; 0] /\
  let (s2, r2) := XferModel.transfer exGet 0 false s1 CPUdev 0 (XV true 1 true [2; 2] (OnDev 0 1)) true in
  r2 = Ok (XV true 1 true [2; 2] (OnHost 1)) /\ hostM s2 1 = [0; 0; 0; 0] /\ hostM (flush s2) 1 = [7; 8; 9; 10].
Proof. vm_compute. repeat split. Qed.

(** The channel is not there after the initialisation of one engine. *)
Example C103_case_history : runExt [EInitOk 1; EOther] = Ext false true 1.
Proof. reflexivity. Qed.
