(** Proofs about TpModel.v. *)
From Coq Require Import List Arith Bool Lia.
From Verif Require Import TpModel TpSpec.
Import ListNotations.
Local Open Scope nat_scope.

(** The last writer of each register, and the transports since the last flush. *)
Definition lwStep (f : nat -> option nat) (ins : instr) : nat -> option nat :=
  match ins with
  | ILoad i w | IAlloc i w | ILet i w | IRead i _ w | ITrans i _ w | IExec i _ w =>
      fun x => if Nat.eqb x w then Some i else f x
  | IFlush => f
  end.
Definition lw (code : list instr) : nat -> option nat := fold_left lwStep code (fun _ => None).
Definition pdStep (p : list nat) (ins : instr) : list nat :=
  match ins with IFlush => [] | ITrans j _ _ => j :: p | _ => p end.
Definition pend (code : list instr) : list nat := fold_left pdStep code [].

Lemma lw_app a b : lw (a ++ b) = fold_left lwStep b (lw a).
Proof. apply fold_left_app. Qed.
Lemma pend_app a b : pend (a ++ b) = fold_left pdStep b (pend a).
Proof. apply fold_left_app. Qed.

Lemma lw_keep b : forall f r, (forall ins, In ins b -> ~ writes r ins) -> fold_left lwStep b f r = f r.
Proof.
  induction b as [|x b IH]; intros f r H; cbn; [reflexivity|].
  rewrite IH by (intros; apply H; right; assumption).
  assert (N := H x (or_introl eq_refl)).
  destruct x; cbn in *; try reflexivity; destruct (Nat.eqb_spec r w) || destruct (Nat.eqb_spec r to);
    try reflexivity; subst; contradiction (N eq_refl).
Qed.

Lemma pd_keep b : forall p j, In j p -> ~ In IFlush b -> In j (fold_left pdStep b p).
Proof.
  induction b as [|x b IH]; intros p j H N; cbn; [exact H|].
  apply IH; [|intro X; apply N; right; exact X].
  destruct x; cbn; auto. contradiction N. left. reflexivity.
Qed.

Lemma isIn_spec x l : isIn x l = true <-> In x l.
Proof.
  unfold isIn. rewrite existsb_exists. split.
  - intros (y & H & E). apply Nat.eqb_eq in E. subst. exact H.
  - intro H. exists x. split; [exact H|apply Nat.eqb_refl].
Qed.

Definition allocsOf (code : list instr) : list nat :=
  flat_map (fun ins => match ins with IAlloc _ w => [w] | _ => [] end) code.

Section P.
Variable items : list item.

Definition isTr (j : nat) : Prop := exists h t, transportAt items j h t.

(** A split of a longer program at an instruction the first part does not reach. *)
Lemma split_app (X : instr) : forall (p q a c : list instr), p ++ q = a ++ X :: c ->
  (exists c', p = a ++ X :: c' /\ c = c' ++ q) \/ (exists a', a = p ++ a' /\ q = a' ++ X :: c).
Proof.
  induction p as [|y p IH]; intros q a c E.
  - right. exists a. split; [reflexivity|exact E].
  - destruct a as [|z a]; cbn in E.
    + injection E as -> <-. left. exists p. split; reflexivity.
    + injection E as <- E. destruct (IH q a c E) as [(c' & -> & ->)|(a' & -> & ->)].
      * left. exists c'. split; reflexivity.
      * right. exists a'. split; reflexivity.
Qed.

Definition okExec (code : list instr) : Prop :=
  forall a i rs w c, code = a ++ IExec i rs w :: c ->
  forall r j, In r rs -> lw a r = Some j -> isTr j -> ~ In j (pend a).

Definition okHost (code : list instr) : Prop :=
  forall a j f r c t, code = a ++ ITrans j f r :: c -> transportAt items j true t -> j < t ->
  exists c', c = IFlush :: c'.

Record Inv (code : list instr) (st : cgen) (n : nat) : Prop := {
  invA : forall r, lastWrites st r = lw code r;
  invB : forall j, In j (pend code) -> ~ In j (flushed st);
  invC : forall j, In j (queue st ++ flushed st) -> j < n;
  invD : forall j, In j (pend code) -> j < n;
  invE : okExec code;
  invF : okHost code;
  invG : allocated st = rev (allocsOf code);
  invH : NoDup (allocsOf code)
}.

Lemma flushReads_ok it : forall rs st fl st' code,
  (forall r, lastWrites st r = lw code r) -> (forall j, In j (pend code) -> ~ In j (flushed st)) ->
  flushReads items it rs st = (fl, st') ->
  (forall x, In x fl -> x = IFlush) /\ (forall r, lastWrites st' r = lastWrites st r) /\
  (forall j, In j (pend (code ++ fl)) -> ~ In j (flushed st')) /\
  allocated st' = allocated st /\
  (forall j, In j (queue st' ++ flushed st') -> In j (queue st ++ flushed st)) /\
  (forall j, In j (pend (code ++ fl)) -> In j (pend code)) /\
  (forall r j, In r rs -> lastWrites st r = Some j -> isTr j -> ~ In j (pend (code ++ fl))).
Proof.
  induction rs as [|r rs IH]; intros st fl st' code A B E; cbn in E.
  - injection E as <- <-. rewrite app_nil_r. split; [intros x []|]. repeat (split; [auto; fail|]). intros r j [].
  - destruct (wantsFlush items it st r) eqn:W.
    + destruct (flushReads items it rs (flush st)) as [fl0 st0] eqn:E0. injection E as <- <-.
      assert (P0 : pend (code ++ [IFlush]) = []) by (rewrite pend_app; reflexivity).
      destruct (IH (flush st) fl0 st0 (code ++ [IFlush])) as (I1 & I2 & I3 & I4 & I5 & I6 & I7).
      * intro x. rewrite lw_app. cbn. apply A.
      * intros j. rewrite P0. intros [].
      * exact E0.
      * rewrite <- app_assoc in *. cbn [app] in *.
        split; [intros x [<-|H]; auto|]. split; [intro x; rewrite I2; reflexivity|].
        split; [exact I3|]. split; [rewrite I4; reflexivity|].
        split. { intros j H. apply I5 in H. cbn in H. exact H. }
        split. { intros j H. apply I6 in H. rewrite P0 in H. destruct H. }
        intros r0 j _ _ _ H. apply I6 in H. rewrite P0 in H. destruct H.
    + destruct (IH st fl st' code A B E) as (I1 & I2 & I3 & I4 & I5 & I6 & I7).
      repeat (split; [assumption|]).
      intros r0 j [<-|H] L T; [|exact (I7 r0 j H L T)].
      intro P. apply I6 in P. apply (B j) in P. apply P.
      unfold wantsFlush in W. rewrite L in W. destruct T as (h & t & ti & N & K).
      rewrite N, K in W. apply negb_false_iff in W. apply isIn_spec in W. exact W.
Qed.

Lemma ok_app_exec code c : okExec code ->
  (forall a i rs w c', c = a ++ IExec i rs w :: c' ->
     forall r j, In r rs -> lw (code ++ a) r = Some j -> isTr j -> ~ In j (pend (code ++ a))) ->
  okExec (code ++ c).
Proof.
  intros O H a i rs w c' E. destruct (split_app _ _ _ _ _ E) as [(d & E1 & E2)|(d & E1 & E2)].
  - exact (O a i rs w d E1).
  - subst a. intros r j. exact (H d i rs w c' E2 r j).
Qed.

Lemma ok_app_host code c : okHost code ->
  (forall a j f r c' t, c = a ++ ITrans j f r :: c' -> transportAt items j true t -> j < t ->
     exists c'', c' = IFlush :: c'') ->
  okHost (code ++ c).
Proof.
  intros O H a j f r c' t E T L. destruct (split_app _ _ _ _ _ E) as [(d & E1 & E2)|(d & E1 & E2)].
  - destruct (O a j f r d t E1 T L) as (d' & ->). subst c'. exists (d' ++ c). reflexivity.
  - exact (H d j f r c' t E2 T L).
Qed.

Lemma not_exec c : (forall x, In x c -> match x with IExec _ _ _ => False | _ => True end) ->
  forall (a : list instr) i rs w c', c = a ++ IExec i rs w :: c' -> False.
Proof. intros H a i rs w c' ->. apply (H (IExec i rs w)). apply in_or_app. right. left. reflexivity. Qed.

Lemma not_trans c : (forall x, In x c -> match x with ITrans _ _ _ => False | _ => True end) ->
  forall (a : list instr) i f r c', c = a ++ ITrans i f r :: c' -> False.
Proof. intros H a i f r c' ->. apply (H (ITrans i f r)). apply in_or_app. right. left. reflexivity. Qed.

Lemma allocs_app a b : allocsOf (a ++ b) = allocsOf a ++ allocsOf b.
Proof. apply flat_map_app. Qed.

Lemma alloc_ok st i w al st1 code n :
  Inv code st n -> allocFor st i w = (al, st1) ->
  (al = [] /\ st1 = st \/ al = [IAlloc i w] /\ flushed st1 = flushed st /\ queue st1 = queue st ++ [i] /\
     (forall r, lastWrites st1 r = lw (code ++ al) r)) /\
  allocated st1 = rev (allocsOf (code ++ al)) /\ NoDup (allocsOf (code ++ al)).
Proof.
  intros IV E. unfold allocFor in E. destruct (isIn w (allocated st)) eqn:M.
  - injection E as <- <-. rewrite app_nil_r. split; [left; split; reflexivity|]. split; apply IV.
  - injection E as <- <-. split.
    + right. repeat split. intro r. rewrite lw_app. cbn. rewrite <- (invA _ _ _ IV). reflexivity.
    + rewrite allocs_app. cbn [allocsOf flat_map app]. rewrite rev_app_distr. cbn. split.
      * f_equal. apply IV.
      * assert (N : ~ In w (allocsOf code)).
        { intro H. apply not_true_iff_false in M. apply M. apply isIn_spec. rewrite (invG _ _ _ IV). apply -> in_rev. exact H. }
        assert (D := invH _ _ _ IV). clear -N D. revert D N. generalize (allocsOf code). intro l. induction l as [|x l IH]; cbn; intros D N.
        -- constructor; [intros []|constructor].
        -- inversion D; subst. constructor; [|apply IH; tauto].
           intro H. apply in_app_or in H. destruct H as [H|[H|[]]]; [tauto|]. apply N. left. symmetry. exact H.
Qed.

Lemma genItem_ok it st n code c st' :
  nth_error items n = Some it -> Inv code st n -> genItem items it st n = (c, st') ->
  Inv (code ++ c) st' (S n).
Proof.
  intros N IV E. unfold genItem in E.
  assert (SC : forall j, In j (queue st ++ flushed st) -> j < S n) by (intros j H; apply (invC _ _ _ IV) in H; lia).
  assert (SD : forall j, In j (pend code) -> j < S n) by (intros j H; apply (invD _ _ _ IV) in H; lia).
  destruct (nkind it) as [| | |h t| |] eqn:K.
  - (* argument *)
    injection E as <- <-. constructor; cbn [updateLastWrites lastWrites flushed queue allocated].
    + intro r. rewrite lw_app. cbn. rewrite <- (invA _ _ _ IV). reflexivity.
    + intro j. rewrite pend_app. cbn. apply (invB _ _ _ IV).
    + exact SC.
    + intro j. rewrite pend_app. cbn. apply SD.
    + apply ok_app_exec; [apply IV|]. intros a i rs w c' E. exfalso. revert E. apply not_exec. intros x [<-|[]]; exact I.
    + apply ok_app_host; [apply IV|]. intros a i rs w c' u E. exfalso. revert E. apply not_trans. intros x [<-|[]]; exact I.
    + rewrite allocs_app, app_nil_r. apply IV.
    + rewrite allocs_app, app_nil_r. apply IV.
  - (* Let *)
    injection E as <- <-. constructor; cbn [updateLastWrites lastWrites flushed queue allocated].
    + intro r. rewrite lw_app. cbn. rewrite <- (invA _ _ _ IV). reflexivity.
    + intro j. rewrite pend_app. cbn. apply (invB _ _ _ IV).
    + exact SC.
    + intro j. rewrite pend_app. cbn. apply SD.
    + apply ok_app_exec; [apply IV|]. intros a i rs w c' E. exfalso. revert E. apply not_exec. intros x [<-|[]]; exact I.
    + apply ok_app_host; [apply IV|]. intros a i rs w c' u E. exfalso. revert E. apply not_trans. intros x [<-|[]]; exact I.
    + rewrite allocs_app, app_nil_r. apply IV.
    + rewrite allocs_app, app_nil_r. apply IV.
  - (* Read *)
    destruct (isIn n (flushed st)) eqn:M.
    { exfalso. apply isIn_spec in M. assert (n < n); [|lia]. apply (invC _ _ _ IV). apply in_or_app. right. exact M. }
    injection E as <- <-. constructor; cbn [updateLastWrites flush lastWrites flushed queue allocated].
    + intro r. rewrite lw_app. cbn. rewrite <- (invA _ _ _ IV). reflexivity.
    + intro j. rewrite pend_app. cbn. intros [].
    + exact SC.
    + intro j. rewrite pend_app. cbn. intros [].
    + apply ok_app_exec; [apply IV|]. intros a i rs w c' E. exfalso. revert E. apply not_exec. intros x [<-|[<-|[]]]; exact I.
    + apply ok_app_host; [apply IV|]. intros a i rs w c' u E. exfalso. revert E. apply not_trans. intros x [<-|[<-|[]]]; exact I.
    + rewrite allocs_app, app_nil_r. apply IV.
    + rewrite allocs_app, app_nil_r. apply IV.
  - (* transport *)
    unfold addTrans in E. destruct (allocFor st n (nreg it)) as [al st1] eqn:EA.
    destruct (alloc_ok _ _ _ _ _ _ _ IV EA) as (AL & AG & AH).
    assert (F1 : flushed st1 = flushed st) by (destruct AL as [(_ & ->)|(_ & F & _)]; auto).
    assert (PA : pend (code ++ al) = pend code) by (destruct AL as [(-> & _)|(-> & _)]; rewrite pend_app; reflexivity).
    assert (LA : forall r, lastWrites st1 r = lw (code ++ al) r)
      by (destruct AL as [(-> & ->)|(_ & _ & _ & L)]; [rewrite app_nil_r; apply IV|exact L]).
    assert (QA : forall j, In j (queue st1 ++ flushed st1) -> j < S n).
    { intros j H. destruct AL as [(_ & ->)|(_ & F & Q & _)]; [apply SC; exact H|].
      rewrite F, Q, <- app_assoc in H. apply in_app_or in H. destruct H as [H|[H|H]].
      - apply SC. apply in_or_app. left. exact H.
      - lia.
      - apply SC. apply in_or_app. right. exact H. }
    assert (NA : forall x, In x al -> x = IAlloc n (nreg it)).
    { intros x H. destruct AL as [(-> & _)|(-> & _)]; [destruct H|]. destruct H as [<-|[]]. reflexivity. }
    set (fl := h && negb (isIn t (flushed st1))) in *. injection E as <- <-.
    assert (EQ : code ++ al ++ ITrans n (hd 0 (nreads it)) (nreg it) :: (if fl then [IFlush] else []) =
                 (code ++ al) ++ ITrans n (hd 0 (nreads it)) (nreg it) :: (if fl then [IFlush] else []))
      by (rewrite app_assoc; reflexivity).
    constructor.
    + rewrite EQ. intro r. rewrite lw_app. cbn. destruct fl; cbn; rewrite LA; reflexivity.
    + rewrite EQ. intro j. rewrite pend_app. cbn. destruct fl; cbn; [intros []|].
      rewrite PA, F1. intros [<-|H]; [|apply (invB _ _ _ IV); exact H].
      intro X. assert (n < n); [|lia]. apply (invC _ _ _ IV). apply in_or_app. right. exact X.
    + intros j H. destruct fl; cbn in H; apply QA; exact H.
    + rewrite EQ. intro j. rewrite pend_app. cbn. destruct fl; cbn; [intros []|]. rewrite PA. intros [<-|H]; [lia|apply SD; exact H].
    + apply ok_app_exec; [apply IV|]. intros a i rs w c' E. exfalso. revert E. apply not_exec.
      intros x H. apply in_app_or in H. destruct H as [H|[<-|H]]; [rewrite (NA x H); exact I|exact I|].
      destruct fl; [destruct H as [<-|[]]; exact I|destruct H].
    + rewrite EQ. apply ok_app_host.
      * apply ok_app_host; [apply IV|]. intros a i rs w c' u E. exfalso. revert E. apply not_trans. intros x H. rewrite (NA x H). exact I.
      * intros a j f r c' u E T L. destruct a as [|x a].
        -- injection E as <- <- <- E1. subst c'. destruct T as (ti & T1 & T2). rewrite N in T1. injection T1 as <-.
           rewrite K in T2. injection T2 as -> ->. unfold fl. cbn [andb].
           destruct (isIn u (flushed st1)) eqn:M; [|eexists; reflexivity].
           exfalso. apply isIn_spec in M. rewrite F1 in M. assert (u < n); [|lia]. apply (invC _ _ _ IV). apply in_or_app. right. exact M.
        -- injection E as <- E1. exfalso. revert E1. apply not_trans. intros y H. destruct fl; [destruct H as [<-|[]]; exact I|destruct H].
    + rewrite EQ. rewrite allocs_app. cbn. destruct fl; cbn; rewrite app_nil_r; exact AG.
    + rewrite EQ. rewrite allocs_app. cbn. destruct fl; cbn; rewrite app_nil_r; exact AH.
  - (* another statement *)
    injection E as <- <-. rewrite app_nil_r. destruct IV. constructor; auto.
  - (* operation *)
    unfold addNode in E.
    destruct (if nmut it && nextern it then allocFor st n (nreg it) else ([], st)) as [al st1] eqn:EA.
    assert (AL : (al = [] /\ st1 = st \/ al = [IAlloc n (nreg it)] /\ flushed st1 = flushed st /\ queue st1 = queue st ++ [n] /\
                    (forall r, lastWrites st1 r = lw (code ++ al) r)) /\
                  allocated st1 = rev (allocsOf (code ++ al)) /\ NoDup (allocsOf (code ++ al))).
    { destruct (nmut it && nextern it); [exact (alloc_ok _ _ _ _ _ _ _ IV EA)|].
      injection EA as <- <-. rewrite app_nil_r. split; [left; split; reflexivity|]. split; apply IV. }
    clear EA. destruct AL as (AL & AG & AH).
    assert (F1 : flushed st1 = flushed st) by (destruct AL as [(_ & ->)|(_ & F & _)]; auto).
    assert (PA : pend (code ++ al) = pend code) by (destruct AL as [(-> & _)|(-> & _)]; rewrite pend_app; reflexivity).
    assert (LA : forall r, lastWrites st1 r = lw (code ++ al) r)
      by (destruct AL as [(-> & ->)|(_ & _ & _ & L)]; [rewrite app_nil_r; apply IV|exact L]).
    assert (QA : forall j, In j (queue st1 ++ flushed st1) -> j < S n).
    { intros j H. destruct AL as [(_ & ->)|(_ & F & Q & _)]; [apply SC; exact H|].
      rewrite F, Q, <- app_assoc in H. apply in_app_or in H. destruct H as [H|[H|H]].
      - apply SC. apply in_or_app. left. exact H.
      - lia.
      - apply SC. apply in_or_app. right. exact H. }
    assert (NA : forall x, In x al -> x = IAlloc n (nreg it)).
    { intros x H. destruct AL as [(-> & _)|(-> & _)]; [destruct H|]. destruct H as [<-|[]]. reflexivity. }
    clear AL. destruct (flushReads items it (nreads it) st1) as [fl st2] eqn:EF.
    destruct (flushReads_ok it (nreads it) st1 fl st2 (code ++ al)) as (I1 & I2 & I3 & I4 & I5 & I6 & I7).
    { exact LA. } { intros j. rewrite PA, F1. apply (invB _ _ _ IV). } { exact EF. }
    assert (LF : forall r, lw ((code ++ al) ++ fl) r = lastWrites st1 r).
    { intro r. rewrite lw_app, lw_keep, LA; [reflexivity|]. intros x H W. rewrite (I1 x H) in W. destruct W. }
    assert (GF : allocsOf fl = []).
    { clear -I1. induction fl as [|x fl IH]; [reflexivity|]. cbn. rewrite (I1 x (or_introl eq_refl)). cbn. apply IH. intros; apply I1; right; assumption. }
    injection E as <- <-.
    assert (EQ : forall q : list instr, code ++ al ++ fl ++ q = ((code ++ al) ++ fl) ++ q) by (intro q; rewrite <- !app_assoc; reflexivity).
    constructor.
    + intro r. rewrite EQ, lw_app. destruct (nrep it); cbn; rewrite I2, LF; reflexivity.
    + intro j. rewrite EQ, pend_app. destruct (nrep it); cbn; apply I3.
    + intros j H. apply QA. apply I5. destruct (nrep it); exact H.
    + intro j. rewrite EQ, pend_app. intro H. assert (H' : In j (pend ((code ++ al) ++ fl))) by (destruct (nrep it); exact H).
      apply I6 in H'. rewrite PA in H'. apply SD. exact H'.
    + rewrite EQ. apply ok_app_exec.
      * rewrite <- app_assoc. apply ok_app_exec; [apply IV|]. intros a i rs w c' E. exfalso. revert E. apply not_exec.
        intros x H. apply in_app_or in H. destruct H as [H|H]; [rewrite (NA x H)|rewrite (I1 x H)]; exact I.
      * intros a i rs w c' E r j R L T. destruct (nrep it); [|destruct a; discriminate E].
        destruct a as [|x a]; [|destruct a; discriminate E]. injection E as <- <- <- <-.
        rewrite app_nil_r in *. rewrite LF in L. exact (I7 r j R L T).
    + apply ok_app_host; [apply IV|]. intros a i rs w c' u E. exfalso. revert E. apply not_trans.
      intros x H. apply in_app_or in H. destruct H as [H|H]; [rewrite (NA x H); exact I|].
      apply in_app_or in H. destruct H as [H|H]; [rewrite (I1 x H); exact I|].
      destruct (nrep it); [destruct H as [<-|[]]; exact I|destruct H].
    + rewrite EQ, !allocs_app, GF, app_nil_r.
      replace (allocsOf (if nrep it then [IExec n (nreads it) (nreg it)] else [])) with (@nil nat) by (destruct (nrep it); reflexivity).
      rewrite app_nil_r, <- allocs_app. destruct (nrep it); cbn; rewrite I4; exact AG.
    + rewrite EQ, !allocs_app, GF, app_nil_r.
      replace (allocsOf (if nrep it then [IExec n (nreads it) (nreg it)] else [])) with (@nil nat) by (destruct (nrep it); reflexivity).
      rewrite app_nil_r, <- allocs_app. exact AH.
Qed.

Lemma genFrom_ok : forall rest n st code,
  (forall k, nth_error rest k = nth_error items (n + k)) -> Inv code st n ->
  exists st', Inv (code ++ genFrom items rest n st) st' (n + length rest).
Proof.
  induction rest as [|it rest IH]; intros n st code R IV; cbn.
  - exists st. rewrite app_nil_r, Nat.add_0_r. exact IV.
  - destruct (genItem items it st n) as [c st'] eqn:E.
    destruct (IH (S n) st' (code ++ c)) as (st2 & IV2).
    + intro k. specialize (R (S k)). cbn in R. rewrite R. f_equal. lia.
    + apply (genItem_ok it st n code c st'); auto. specialize (R 0). cbn in R. rewrite Nat.add_0_r in R. symmetry. exact R.
    + exists st2. rewrite <- app_assoc in IV2. replace (n + S (length rest)) with (S n + length rest) by lia. exact IV2.
Qed.

Lemma gen_inv : exists st, Inv (gen items) st (length items).
Proof.
  apply (genFrom_ok items 0 _ []); [intro k; reflexivity|].
  constructor.
  - intro r. reflexivity.
  - intros j [].
  - intros j [].
  - intros j [].
  - intros a i rs w c E. destruct a; discriminate E.
  - intros a j f r c t E. destruct a; discriminate E.
  - reflexivity.
  - constructor.
Qed.

(** ** From a transport to the operation that wants it. *)
Lemma genFrom_cut : forall l1 l2 n st, exists pre st',
  genFrom items (l1 ++ l2) n st = pre ++ genFrom items l2 (n + length l1) st'.
Proof.
  induction l1 as [|it l1 IH]; intros l2 n st.
  - exists [], st. rewrite Nat.add_0_r. reflexivity.
  - cbn. destruct (genItem items it st n) as [c st1]. destruct (IH l2 (S n) st1) as (pre & st' & E).
    exists (c ++ pre), st'. rewrite E, app_assoc. do 2 f_equal. cbn. lia.
Qed.

Definition quiet (r : nat) (b : list instr) : Prop := forall x, In x b -> ~ executes x /\ ~ writes r x.

Lemma quiet_app r a b : quiet r a -> quiet r b -> quiet r (a ++ b).
Proof. intros A B x H. apply in_app_or in H. destruct H; auto. Qed.

Lemma alloc_quiet st i w r al st1 : allocFor st i w = (al, st1) -> In r (allocated st) ->
  quiet r al /\ In r (allocated st1).
Proof.
  unfold allocFor. intros E H. destruct (isIn w (allocated st)) eqn:M; injection E as <- <-.
  - split; [intros x []|exact H].
  - split; [|right; exact H]. intros x [<-|[]]. cbn. split; [intros []|]. intros ->.
    apply isIn_spec in H. congruence.
Qed.

Lemma flushReads_only it : forall rs st fl st', flushReads items it rs st = (fl, st') ->
  forall x, In x fl -> x = IFlush.
Proof.
  induction rs as [|r rs IH]; intros st fl st' E x H; cbn in E.
  - injection E as <- <-. destruct H.
  - destruct (wantsFlush items it st r).
    + destruct (flushReads items it rs (flush st)) as [c s] eqn:E0. injection E as <- <-.
      destruct H as [<-|H]; [reflexivity|]. exact (IH _ _ _ E0 x H).
    + exact (IH _ _ _ E x H).
Qed.

Lemma run_to op rest r : nkind op = KOp -> nrep op = true -> forall mids n st,
  (forall it, In it mids -> nreg it <> r /\ exists h t, nkind it = KTrans h t) -> In r (allocated st) ->
  exists b c, genFrom items (mids ++ op :: rest) n st =
                b ++ IExec (n + length mids) (nreads op) (nreg op) :: c /\ quiet r b.
Proof.
  intros K R. induction mids as [|it mids IH]; intros n st H A; cbn [app genFrom].
  - unfold genItem. rewrite K. unfold addNode. rewrite R.
    destruct (if nmut op && nextern op then allocFor st n (nreg op) else ([], st)) as [al st1] eqn:EA.
    assert (Q : quiet r al).
    { destruct (nmut op && nextern op); [exact (proj1 (alloc_quiet _ _ _ _ _ _ EA A))|].
      injection EA as <- <-. intros x []. }
    destruct (flushReads items op (nreads op) st1) as [fl st2] eqn:EF.
    exists (al ++ fl). eexists. split; [|apply quiet_app; [exact Q|]].
    + cbn [length]. rewrite Nat.add_0_r, <- !app_assoc. cbn [app]. reflexivity.
    + intros x X. rewrite (flushReads_only _ _ _ _ _ EF x X). cbn. tauto.
  - destruct (H it (or_introl eq_refl)) as (D & h & t & KT).
    unfold genItem. rewrite KT. unfold addTrans.
    destruct (allocFor st n (nreg it)) as [al st1] eqn:EA.
    destruct (alloc_quiet _ _ _ _ _ _ EA A) as (Q & A1).
    set (fl := h && negb (isIn t (flushed st1))).
    destruct (IH (S n) (updateLastWrites (if fl then flush st1 else st1) (nreg it) n)) as (b & c & E & QB).
    + intros x X. apply H. right. exact X.
    + destruct fl; exact A1.
    + rewrite E. exists ((al ++ ITrans n (hd 0 (nreads it)) (nreg it) :: (if fl then [IFlush] else [])) ++ b), c. split.
      * cbn [length]. rewrite <- !app_assoc. replace (n + S (length mids)) with (S n + length mids) by lia. cbn [app]. rewrite <- ?app_assoc. reflexivity.
      * apply quiet_app; [|exact QB]. apply quiet_app; [exact Q|].
        intros x [<-|X]; [cbn; tauto|]. destruct fl; [destruct X as [<-|[]]; cbn; tauto|destruct X].
Qed.

Lemma to_wanted j k tr op : nth_error items j = Some tr -> nth_error items k = Some op ->
  (exists h t, nkind tr = KTrans h t) -> wantedBy items j k ->
  exists a b c, gen items = a ++ ITrans j (hd 0 (nreads tr)) (nreg tr) :: b ++ IExec k (nreads op) (nreg op) :: c /\
    quiet (nreg tr) b.
Proof.
  intros NJ NK (h & t & KT) (LT & (op' & N' & KO & RP & tr' & NJ' & RD & DS) & MID).
  rewrite NK in N'. injection N' as <-. rewrite NJ in NJ'. injection NJ' as <-.
  destruct (nth_error_split items j NJ) as (l1 & l2 & EI & L1).
  assert (NK2 : nth_error l2 (k - S j) = Some op).
  { rewrite <- NK, EI, nth_error_app2 by lia. rewrite L1. replace (k - j) with (S (k - S j)) by lia. reflexivity. }
  destruct (nth_error_split l2 _ NK2) as (mids & rest & EM & LM).
  assert (NM : forall m, m < length mids -> nth_error items (S j + m) = nth_error mids m).
  { intros m Hm. rewrite EI, nth_error_app2 by lia. rewrite L1. replace (S j + m - j) with (S m) by lia. cbn.
    rewrite EM, nth_error_app1 by exact Hm. reflexivity. }
  destruct (genFrom_cut l1 (tr :: l2) 0 (CGen (fun _ => None) [] [] [])) as (pre & st & E).
  rewrite <- EI in E. unfold gen. rewrite E. cbn [plus]. rewrite L1. cbn [genFrom]. unfold genItem. rewrite KT. unfold addTrans.
  destruct (allocFor st j (nreg tr)) as [al st1] eqn:EA.
  set (fl := h && negb (isIn t (flushed st1))).
  assert (A1 : In (nreg tr) (allocated st1)).
  { unfold allocFor in EA. destruct (isIn (nreg tr) (allocated st)) eqn:M; injection EA as <- <-.
    - apply isIn_spec. exact M.
    - left. reflexivity. }
  subst l2.
  destruct (run_to op rest (nreg tr) KO RP mids (S j)
              (updateLastWrites (if fl then flush st1 else st1) (nreg tr) j)) as (b & c & EB & QB).
  - intros it X. destruct (In_nth_error _ _ X) as (m & Hm).
    assert (m < length mids) by (apply nth_error_Some; congruence).
    rewrite <- NM in Hm by assumption. split.
    + apply (DS (S j + m) it); [lia|exact Hm].
    + destruct (MID (S j + m)) as (h' & t' & it' & X1 & X2); [lia|]. rewrite Hm in X1. injection X1 as <-. eauto.
  - destruct fl; exact A1.
  - rewrite EB. exists (pre ++ al), ((if fl then [IFlush] else []) ++ b), c. split.
    + replace (S j + length mids) with k by lia. rewrite <- !app_assoc. cbn [app]. reflexivity.
    + apply quiet_app; [|exact QB]. intros x X. destruct fl; [destruct X as [<-|[]]; cbn; tauto|destruct X].
Qed.
End P.
