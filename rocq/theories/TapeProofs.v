(** The simulation between compiled programs and direct evaluation. *)
From Coq Require Import List Arith ZArith Lia Bool.
From Verif Require Import TapeModel TapeSpec TapeIntervals.
Import ListNotations.
Local Open Scope nat_scope.

(** ** Running lists of instructions *)
Section Run.
Variable V : Type.
Variable blank : V.
Variable sem : nat -> list V -> option V.
Variable caddr : nat -> nat.
Variable ns : list tnode.

Definition steps (m : mstate V) (is : list instr) (m' : mstate V) : Prop :=
  execAll blank sem caddr ns m is = (m', length is).

Lemma steps_nil : forall m, steps m [] m.
Proof. reflexivity. Qed.

Lemma steps_cons : forall m i m1 is m', exec blank sem caddr ns m i = Some m1 -> steps m1 is m' ->
  steps m (i :: is) m'.
Proof.
  unfold steps. intros m i m1 is m' H1 H2. cbn [execAll length]. rewrite H1, H2. reflexivity.
Qed.

Lemma execAll_len : forall is m m' k, execAll blank sem caddr ns m is = (m', k) -> k <= length is.
Proof.
  induction is as [|i is IH]; cbn [execAll length]; intros m m' k H.
  - inversion H; lia.
  - destruct (exec blank sem caddr ns m i) as [m1|]; [|inversion H; lia].
    destruct (execAll blank sem caddr ns m1 is) as [m2 k2] eqn:E. inversion H; subst.
    apply IH in E. lia.
Qed.

Lemma execAll_app : forall a m b m1, steps m a m1 ->
  execAll blank sem caddr ns m (a ++ b) =
  (let '(m2, k) := execAll blank sem caddr ns m1 b in (m2, length a + k)).
Proof.
  unfold steps. induction a as [|i a IH]; cbn [execAll app length]; intros m b m1 H.
  - inversion H; subst. destruct (execAll blank sem caddr ns m1 b); reflexivity.
  - destruct (exec blank sem caddr ns m i) as [m2|]; [|discriminate].
    destruct (execAll blank sem caddr ns m2 a) as [m3 k3] eqn:E. inversion H; subst.
    rewrite (IH m2 b m1); [|exact E].
    destruct (execAll blank sem caddr ns m1 b). f_equal.
Qed.

Lemma steps_app : forall a m b m1 m2, steps m a m1 -> steps m1 b m2 -> steps m (a ++ b) m2.
Proof.
  intros a m b m1 m2 H1 H2. unfold steps. rewrite (execAll_app a m b m1 H1).
  unfold steps in H2. rewrite H2, app_length. reflexivity.
Qed.

Lemma execAll_app_fail : forall a m b m1 k, execAll blank sem caddr ns m a = (m1, k) -> k < length a ->
  execAll blank sem caddr ns m (a ++ b) = (m1, k).
Proof.
  induction a as [|i a IH]; cbn [execAll app length]; intros m b m1 k H Hk.
  - lia.
  - destruct (exec blank sem caddr ns m i) as [m2|]; [|exact H].
    destruct (execAll blank sem caddr ns m2 a) as [m3 k3] eqn:E. inversion H; subst.
    rewrite (IH m2 b m1 k3); auto. lia.
Qed.

End Run.

(** ** Direct evaluation *)
Section Ev.
Variable ns : list tnode.
Variable V : Type.
Variable sem : nat -> list V -> option V.
Variable inp : nat -> V.

Lemma evalsAll_Forall2 : forall cs vs, evalsAll ns sem inp cs vs <-> Forall2 (evals ns sem inp) cs vs.
Proof.
  split.
  - induction cs as [|c cs IH] in vs |- *; intros H; inversion H; subst; constructor; auto.
  - induction cs as [|c cs IH] in vs |- *; intros H; inversion H; subst; constructor; auto.
Qed.

Hypothesis SG : sortedGraph ns.

Lemma evals_det : forall i v v', evals ns sem inp i v -> evals ns sem inp i v' -> v = v'.
Proof.
  induction i as [i IH] using lt_wf_ind. intros v v' H1 H2.
  inversion H1 as [? Hi K|? Hi K|? vs ? Hi K A S]; subst; clear H1;
  inversion H2 as [? Hi' K'|? Hi' K'|? vs' ? Hi' K' A' S']; subst; clear H2;
    try reflexivity; try (destruct K; congruence); try (destruct K'; congruence).
  assert (vs = vs'); [|congruence].
  assert (W : forall c, In c (tkids (nodeAt ns i)) -> c < i).
  { intros c Hc. apply (sg_kids ns SG i c Hi Hc). }
  clear S S'. revert vs vs' A A'. induction (tkids (nodeAt ns i)) as [|c cs IHc]; intros vs vs' A A'.
  - inversion A; inversion A'; reflexivity.
  - inversion A; inversion A'; subst. f_equal.
    + apply (IH c); auto. apply W. left; reflexivity.
    + apply IHc; auto. intros; apply W; right; auto.
Qed.

Lemma evalsAll_det : forall cs vs vs', evalsAll ns sem inp cs vs -> evalsAll ns sem inp cs vs' -> vs = vs'.
Proof.
  induction cs as [|c cs IH]; intros vs vs' A A'; inversion A; inversion A'; subst; [reflexivity|].
  f_equal; [eapply evals_det; eauto | auto].
Qed.
End Ev.

(** ** The code generated for each node, without collisions and let statements *)
Section Code.
Variable ns : list tnode.
Let n := length ns.
Hypothesis SG : sortedGraph ns.
Hypothesis NL : noLet ns.
Hypothesis NC : noCollision ns.
Variable leaves : list nat.
Hypothesis LV : forall p, In p leaves -> p < n.
Let lc := loc ns.

Definition preAt (i : nat) : bool := isMutable (nodeAt ns i) && textern (nodeAt ns i).
Definition unsafeAt (i : nat) : bool :=
  match tover (nodeAt ns i) with
  | Some o => match nth_error (map lc (tkids (nodeAt ns i))) o with
              | Some r => Nat.eqb r (lc i)
              | None => false
              end
  | None => false
  end.
Definition codeOf (i : nat) : list instr :=
  match tk (nodeAt ns i) with
  | TArg => [ILoad i (lc i)]
  | TLet => [ILet]
  | TRead => [IRead i (lc (nth 0 (tkids (nodeAt ns i)) 0))]
  | TAt => []
  | _ => (if preAt i then [IAlloc i (lc i)] else []) ++
         [IExec i (map lc (tkids (nodeAt ns i))) (lc i) (preAt i) (unsafeAt i)]
  end.

Lemma genFrom_codes : forall len i al, i + len = n ->
  (forall r, In r al -> exists j, j < i /\ hasValue ns j /\ r = lc j) ->
  genFrom ns (seq 0 n) lc al (seq i len) = map codeOf (seq i len).
Proof.
  induction len as [|len IH]; intros i al Hl Hal; [reflexivity|].
  cbn [seq genFrom map].
  assert (Hi : i < n) by lia.
  assert (Hal' : forall r, In r al -> exists j, j < S i /\ hasValue ns j /\ r = lc j).
  { intros r Hr. destruct (Hal r Hr) as (j & Hj & K). exists j. split; [lia | exact K]. }
  assert (ANode : tk (nodeAt ns i) <> TArg -> tk (nodeAt ns i) <> TLet -> tk (nodeAt ns i) <> TRead -> tk (nodeAt ns i) <> TAt ->
    exists al', addNode ns (seq 0 n) lc al i =
        ((if preAt i then [IAlloc i (lc i)] else []) ++
         [IExec i (map lc (tkids (nodeAt ns i))) (lc i) (preAt i) (unsafeAt i)], al') /\
      (forall r, In r al' -> exists j, j < S i /\ hasValue ns j /\ r = lc j)).
  { intros N1 N2 N3 N4. unfold addNode. unfold n. rewrite (replOf_id ns). rewrite Nat.eqb_refl.
    assert (M : map (fun c => lc (replOf (seq 0 (length ns)) c)) (tkids (nodeAt ns i)) =
                map lc (tkids (nodeAt ns i))).
    { apply map_ext. intros c. rewrite (replOf_id ns). reflexivity. }
    rewrite M.
    assert (HV : hasValue ns i) by (repeat split; auto).
    assert (P : isMutable (nodeAt ns i) && textern (nodeAt ns i) && negb (existsb (Nat.eqb (lc i)) al) = preAt i).
    { unfold preAt. destruct (isMutable (nodeAt ns i) && textern (nodeAt ns i)) eqn:E; [|reflexivity].
      cbn [andb]. apply negb_true_iff. apply not_true_is_false. intros H.
      apply existsb_exists in H. destruct H as (r & Hr & Er). apply Nat.eqb_eq in Er.
      destruct (Hal r Hr) as (j & Hj & HVj & ->).
      destruct (loc_shared_spec ns SG NL i j HV HVj Hj (eq_sym Er)) as (_ & _ & _ & X).
      apply andb_true_iff in E. destruct E as [_ E]. congruence. }
    rewrite P. fold (unsafeAt i).
    eexists. split; [reflexivity|].
    destruct (preAt i); [|exact Hal'].
    intros r [<-|Hr]; [exists i; repeat split; auto | auto]. }
  unfold genNode, codeOf.
  destruct (tk (nodeAt ns i)) eqn:K.
  2,3,4: destruct ANode as (al' & E & H); try discriminate;
    rewrite E; f_equal; apply IH; [lia | exact H].
  - unfold n. rewrite (replOf_id ns). f_equal. apply IH; [lia | exact Hal'].
  - f_equal. apply IH; [lia | exact Hal'].
  - f_equal. apply IH; [lia | exact Hal'].
  - f_equal. apply IH; [lia | exact Hal'].
Qed.

Lemma codes_eq : codes ns leaves = map codeOf (seq 0 n).
Proof.
  unfold codes. rewrite (replacements_id ns NC leaves LV).
  exact (genFrom_codes n 0 [] eq_refl (fun r (H : In r []) => match H with end)).
Qed.
End Code.

(** ** The invariant *)
Section Sim.
Variable V : Type.
Variable blank : V.
Variable sem : nat -> list V -> option V.
Variable caddr : nat -> nat.
Variable ns : list tnode.
Let n := length ns.
Hypothesis SG : sortedGraph ns.
Hypothesis NL : noLet ns.
Hypothesis NA : noAlias ns.
Variable m0 : mstate V.
Hypothesis RD : ready ns caddr m0.
Let lc := loc ns.
Let inp := given ns caddr m0.
Let ev := evals ns sem inp.

Definition latest (j i : nat) : Prop := forall k, hasValue ns k -> i < k -> k < j -> lc k <> lc i.
Definition opish (i : nat) : Prop := tk (nodeAt ns i) = TOp \/ tk (nodeAt ns i) = TRandom.

Record Inv (j : nat) (m : mstate V) : Prop := {
  i_fresh : fresh m0 <= fresh m;
  i_store : forall a, a < fresh m0 -> store m a = store m0 a;
  i_bound : forall i, tk (nodeAt ns i) = TArg -> bound m i = bound m0 i;
  i_none : forall r, (forall i, hasValue ns i -> i < j -> lc i <> r) -> regs m r = None;
  i_val : forall i, hasValue ns i -> i < j -> latest j i ->
     exists a, regs m (lc i) = Some a /\ bound m i = Some a /\ a < fresh m /\ ev i (store m a) /\
               (opish i -> fresh m0 <= a) /\ (~ opish i -> a < fresh m0);
  i_sep : forall i i', hasValue ns i -> hasValue ns i' -> i < j -> i' < j -> latest j i -> latest j i' ->
     opish i -> opish i' -> lc i <> lc i' -> regs m (lc i) <> regs m (lc i');
  i_cells : forall i c, i < j -> i < n -> tk (nodeAt ns i) = TRead -> tkids (nodeAt ns i) = [c] ->
     exists v, cells m i = Some v /\ ev c v
}.

Lemma inv0 : Inv 0 m0.
Proof.
  constructor; auto; intros; try lia. apply (rd_regs _ _ _ _ RD).
Qed.

Lemma latest_S : forall j i, latest (S j) i -> latest j i.
Proof. intros j i H k HV Hk Hj. apply H; auto. Qed.

Lemma latest_S_intro : forall j i, latest j i -> lc j <> lc i -> latest (S j) i.
Proof.
  intros j i H N k HV Hk Hj. destruct (Nat.eq_dec k j) as [->|]; [exact N|]. apply H; auto; lia.
Qed.

Lemma opish_dec : forall i, opish i \/ ~ opish i.
Proof. intros i. unfold opish. destruct (tk (nodeAt ns i)); intuition discriminate. Qed.

(** Writing the result of node [j]. *)
Lemma inv_write : forall j m m' a, hasValue ns j -> Inv j m ->
  (forall r, regs m' r = updN (regs m) (lc j) (Some a) r) ->
  (bound m' = updN (bound m) j (Some a) \/ (bound m' = bound m /\ bound m j = Some a)) ->
  fresh m <= fresh m' -> a < fresh m' -> cells m' = cells m ->
  (forall b, b < fresh m -> b <> a -> store m' b = store m b) ->
  (opish j -> fresh m0 <= a /\ forall i, hasValue ns i -> i < j -> latest (S j) i -> regs m (lc i) <> Some a) ->
  (~ opish j -> a < fresh m0 /\ store m' a = store m a) ->
  (tk (nodeAt ns j) = TArg -> bound m' = bound m) ->
  ev j (store m' a) ->
  Inv (S j) m'.
Proof.
  intros j m m' a HVj I Er Eb Ef Ha Ec Es Hop Hnop Harg Hev.
  assert (F := i_fresh _ _ I).
  assert (Regs : forall r, r <> lc j -> regs m' r = regs m r).
  { intros r N. rewrite Er. unfold updN. destruct (Nat.eqb_spec r (lc j)); congruence. }
  assert (Rj : regs m' (lc j) = Some a).
  { rewrite Er. unfold updN. rewrite Nat.eqb_refl. reflexivity. }
  assert (Bj : bound m' j = Some a).
  { destruct Eb as [->|[-> Eb]]; [|exact Eb]. unfold updN. rewrite Nat.eqb_refl. reflexivity. }
  assert (Bi : forall i, i <> j -> bound m' i = bound m i).
  { intros i N. destruct Eb as [->|[-> Eb]]; [|reflexivity]. unfold updN.
    destruct (Nat.eqb_spec i j); congruence. }
  assert (Old : forall i, hasValue ns i -> i < S j -> i <> j -> latest (S j) i ->
     exists b, regs m' (lc i) = Some b /\ bound m' i = Some b /\ b < fresh m' /\ ev i (store m' b) /\
               (opish i -> fresh m0 <= b) /\ (~ opish i -> b < fresh m0) /\ regs m (lc i) = Some b).
  { intros i HVi Hi N L. assert (Hij : i < j) by lia.
    destruct (i_val _ _ I i HVi Hij (latest_S _ _ L)) as (b & R & B & Hb & E & O1 & O2).
    assert (NL' : lc i <> lc j) by (intros Q; apply (L j); auto).
    exists b. rewrite Regs by exact NL'. rewrite Bi by exact N.
    repeat split; auto; try lia.
    assert (Hs : store m' b = store m b); [|rewrite Hs; exact E].
    destruct (Nat.eq_dec b a) as [->|Nba]; [|apply Es; auto].
    destruct (opish_dec j) as [Oj|Oj].
    - exfalso. destruct (Hop Oj) as [_ Q]. apply (Q i HVi Hij L). exact R.
    - apply Hnop. exact Oj. }
  constructor.
  - lia.
  - intros b Hb. rewrite <- (i_store _ _ I b Hb).
    destruct (Nat.eq_dec b a) as [->|Nba]; [|apply Es; auto; lia].
    destruct (opish_dec j) as [Oj|Oj]; [destruct (Hop Oj); lia | apply Hnop; exact Oj].
  - intros i Hi. destruct (Nat.eq_dec i j) as [->|Nij].
    + rewrite (Harg Hi). apply (i_bound _ _ I). exact Hi.
    + rewrite Bi by exact Nij. apply (i_bound _ _ I). exact Hi.
  - intros r Hr. rewrite Regs; [|intros ->; apply (Hr j); auto; lia].
    apply (i_none _ _ I). intros i HVi Hi. apply Hr; auto.
  - intros i HVi Hi L. destruct (Nat.eq_dec i j) as [->|Nij].
    + exists a. repeat split; auto; [intros O; apply Hop; exact O | intros O; apply Hnop; exact O].
    + destruct (Old i HVi Hi Nij L) as (b & ? & ? & ? & ? & ? & ? & _). exists b. auto 10.
  - intros i i' HVi HVi' Hi Hi' L L' O O' Nl.
    destruct (Nat.eq_dec i j) as [->|Nij]; destruct (Nat.eq_dec i' j) as [->|Nij'].
    + congruence.
    + destruct (Old i' HVi' Hi' Nij' L') as (b & R & _ & _ & _ & _ & _ & R').
      rewrite Rj, R. intros Q. inversion Q; subst b.
      destruct (Hop O) as [_ W]. apply (W i' HVi'); auto. lia.
    + destruct (Old i HVi Hi Nij L) as (b & R & _ & _ & _ & _ & _ & R').
      rewrite Rj, R. intros Q. inversion Q; subst b.
      destruct (Hop O') as [_ W]. apply (W i HVi); auto. lia.
    + rewrite !Regs; [|intros Q; apply (L' j); auto; lia|intros Q; apply (L j); auto; lia].
      apply (i_sep _ _ I); auto; try lia; apply latest_S; auto.
  - intros i c Hi Hn K Kc. rewrite Ec.
    assert (i <> j) by (intros ->; destruct HVj as (_ & _ & W & _); congruence).
    apply (i_cells _ _ I); auto. lia.
Qed.

(** Reading the children of [j]. *)
Lemma kids_ready : forall j m, hasValue ns j \/ (j < n /\ tk (nodeAt ns j) = TRead) -> Inv j m ->
  forall cs, incl cs (tkids (nodeAt ns j)) ->
  exists args, fetch m (map lc cs) = Some args /\ evalsAll ns sem inp cs (map (store m) args) /\
     Forall2 (fun c a => regs m (lc c) = Some a /\ a < fresh m) cs args.
Proof.
  intros j m Hj I.
  assert (Hjn : j < n) by (destruct Hj as [[H _]|[H _]]; exact H).
  induction cs as [|c cs IH]; intros Hincl; cbn [map fetch].
  - exists []. repeat split; constructor.
  - assert (Hc : In c (tkids (nodeAt ns j))) by (apply Hincl; left; reflexivity).
    destruct (sg_kids ns SG j c Hjn Hc) as [Hcj HVc].
    assert (L : latest j c).
    { intros k HVk H1 H2. apply (kid_latest ns SG NL j c k); auto. split; auto. }
    destruct (i_val _ _ I c HVc Hcj L) as (a & R & _ & Ha & E & _).
    destruct IH as (args & F & A & B); [intros x Hx; apply Hincl; right; exact Hx|].
    rewrite R, F. exists (a :: args). repeat split; auto; constructor; auto.
Qed.

(** One node whose value exists. *)
Lemma node_step : forall j m, j < n -> Inv j m ->
  (hasValue ns j -> exists v, ev j v) ->
  exists m', steps V blank sem caddr ns m (codeOf ns j) m' /\ Inv (S j) m'.
Proof.
  intros j m Hj I Hval. unfold codeOf. fold lc.
  destruct (tk (nodeAt ns j)) eqn:K; cycle 4.
  - (* let *) exfalso. apply (NL j Hj K).
  - (* read *)
    assert (Len := sg_read ns SG j Hj K).
    destruct (tkids (nodeAt ns j)) as [|c [|c' cs]] eqn:Kc; try discriminate. cbn [nth].
    destruct (kids_ready j m (or_intror (conj Hj K)) I [c]) as (args & F & A & B).
    { rewrite Kc. apply incl_refl. }
    inversion B as [|? a ? ? [R Ha] B' ]; subst. inversion B'; subst.
    cbn [map] in A. inversion A as [|? ? ? ? E A']; subst.
    eexists. split.
    { eapply steps_cons; [|apply steps_nil]. cbn [exec]. rewrite R. reflexivity. }
    constructor; cbn [fresh store bound regs cells].
    + apply (i_fresh _ _ I).
    + apply (i_store _ _ I).
    + apply (i_bound _ _ I).
    + intros r Hr. apply (i_none _ _ I). intros i HV Hi. apply Hr; auto.
    + intros i HVi Hi L. apply (i_val _ _ I); auto.
      * assert (i <> j) by (intros ->; destruct HVi as (_ & _ & W & W'); congruence). lia.
      * apply latest_S; exact L.
    + intros i i' HVi HVi' Hi Hi' L L' O O' Nl.
      assert (i <> j) by (intros ->; destruct HVi as (_ & _ & W & W'); congruence).
      assert (i' <> j) by (intros ->; destruct HVi' as (_ & _ & W & W'); congruence).
      apply (i_sep _ _ I); auto; try lia; apply latest_S; auto.
    + intros i c0 Hi Hin Ki Kci. unfold updN. destruct (Nat.eqb_spec i j) as [->|N].
      * assert (c0 = c) as -> by congruence. eexists. split; [reflexivity|exact E].
      * apply (i_cells _ _ I); auto. lia.
  - (* at: no instruction *)
    exists m. split; [apply steps_nil|]. constructor.
    + apply (i_fresh _ _ I).
    + apply (i_store _ _ I).
    + apply (i_bound _ _ I).
    + intros r Hr. apply (i_none _ _ I). intros i HV Hi. apply Hr; auto.
    + intros i HVi Hi L. apply (i_val _ _ I); auto.
      * assert (i <> j) by (intros ->; destruct HVi as (_ & _ & W & W'); congruence). lia.
      * apply latest_S; exact L.
    + intros i i' HVi HVi' Hi Hi' L L' O O' Nl.
      assert (i <> j) by (intros ->; destruct HVi as (_ & _ & W & W'); congruence).
      assert (i' <> j) by (intros ->; destruct HVi' as (_ & _ & W & W'); congruence).
      apply (i_sep _ _ I); auto; try lia; apply latest_S; auto.
    + intros i c0 Hi Hin Ki Kci. assert (i <> j) by congruence. apply (i_cells _ _ I); auto. lia.
  - (* arg *)
    assert (HV : hasValue ns j) by (repeat split; [exact Hj | congruence | congruence | congruence]).
    destruct (rd_args _ _ _ _ RD j Hj K) as (a & Ba & Ha).
    assert (B : bound m j = Some a) by (rewrite (i_bound _ _ I j K); exact Ba).
    exists (setReg m (lc j) a). split.
    { eapply steps_cons; [|apply steps_nil]. cbn [exec]. rewrite B. reflexivity. }
    assert (F := i_fresh _ _ I).
    eapply (inv_write j m _ a HV I); cbn [setReg regs bound fresh cells store]; auto; try lia.
    + intros [O|O]; congruence.
    + unfold ev. assert (store m a = inp j) as ->.
      { unfold inp, given. rewrite K, Ba. apply (i_store _ _ I). exact Ha. }
      apply ev_arg; auto.
  - (* const *)
    assert (HV : hasValue ns j) by (repeat split; [exact Hj | congruence | congruence | congruence]).
    destruct (sg_leaf ns SG j Hj (or_intror (or_introl K))) as (Kk & Ko & Kx).
    unfold preAt, unsafeAt. rewrite Kx, Ko, Kk, andb_false_r. cbn [app map].
    assert (R : regs m (lc j) = None).
    { apply (i_none _ _ I). intros i HVi Hi Q.
      destruct (loc_shared_spec ns SG NL j i HV HVi Hi Q) as (_ & _ & W & _). congruence. }
    exists (bind (setReg m (lc j) (caddr j)) j (caddr j)). split.
    { eapply steps_cons; [|apply steps_nil]. cbn [exec]. unfold execOp. cbn [fetch].
      rewrite R. unfold doOp. rewrite K. reflexivity. }
    assert (F := i_fresh _ _ I). assert (C := rd_consts _ _ _ _ RD j Hj K).
    eapply (inv_write j m _ (caddr j) HV I);
      cbn [setReg bind regs bound fresh cells store]; auto; try lia.
    + intros [O|O]; congruence.
    + congruence.
    + unfold ev. assert (store m (caddr j) = inp j) as ->.
      { unfold inp, given. rewrite K. apply (i_store _ _ I). exact C. }
      apply ev_const; auto.
  - (* random *)
    assert (HV : hasValue ns j) by (repeat split; [exact Hj | congruence | congruence | congruence]).
    destruct (sg_leaf ns SG j Hj (or_intror (or_intror K))) as (Kk & Ko & Kx).
    unfold preAt, unsafeAt. rewrite Kx, Ko, Kk, andb_false_r. cbn [app map].
    destruct (Hval HV) as [v Hv].
    inversion Hv as [? ? Q|? ? Q|? vs ? _ _ A Sm]; subst; try congruence.
    rewrite Kk in A. inversion A; subst.
    assert (R : regs m (lc j) = None).
    { apply (i_none _ _ I). intros i HVi Hi Q.
      destruct (loc_shared_spec ns SG NL j i HV HVi Hi Q) as (_ & _ & W & _). congruence. }
    eexists. split.
    { eapply steps_cons; [|apply steps_nil]. cbn [exec]. unfold execOp. cbn [fetch].
      rewrite R. unfold doOp. rewrite K. cbn [map]. rewrite Sm, (NA j Hj).
      unfold malloc. reflexivity. }
    assert (F := i_fresh _ _ I).
    eapply (inv_write j m _ (fresh m) HV I);
      cbn [setReg bind regs bound fresh cells store]; auto; try lia.
    + intros b Hb N. unfold updN. destruct (Nat.eqb_spec b (fresh m)); [contradiction|reflexivity].
    + intros _. split; [exact F|]. intros i HVi Hi L Q.
      destruct (i_val _ _ I i HVi Hi (latest_S _ _ L)) as (a & Ra & _ & Ha & _).
      rewrite Ra in Q. inversion Q. lia.
    + intros O. exfalso. apply O. right. exact K.
    + congruence.
    + unfold updN. rewrite Nat.eqb_refl. exact Hv.
  - (* op *)
    assert (HV : hasValue ns j) by (repeat split; [exact Hj | congruence | congruence | congruence]).
    assert (Op : opish j) by (left; exact K).
    destruct (Hval HV) as [v Hv].
    inversion Hv as [? ? Q|? ? Q|? vs ? _ _ A Sm]; subst; try congruence.
    destruct (kids_ready j m (or_introl HV) I (tkids (nodeAt ns j)) (incl_refl _)) as (args & F & A' & B).
    assert (vs = map (store m) args) as -> by (eapply evalsAll_det; eauto).
    assert (Fr := i_fresh _ _ I).
    assert (Fresh : forall i, hasValue ns i -> i < j -> latest (S j) i -> forall a, fresh m <= a -> regs m (lc i) <> Some a).
    { intros i HVi Hi L a La Q.
      destruct (i_val _ _ I i HVi Hi (latest_S _ _ L)) as (b & Rb & _ & Hb & _).
      rewrite Rb in Q. inversion Q. lia. }
    assert (Args : forall m1 : mstate V, (forall b, b < fresh m -> store m1 b = store m b) ->
                   map (store m1) args = map (store m) args).
    { intros m1 H5. clear - B H5. revert args B.
      induction (tkids (nodeAt ns j)); intros args B; inversion B as [|? ? ? ? [? ?] ?]; subst; [reflexivity|].
      cbn [map]. f_equal; [apply H5; assumption | auto]. }
    assert (FetchEq : forall m1 : mstate V, (forall r c, In c (tkids (nodeAt ns j)) -> r = lc c -> regs m1 r = regs m r) ->
                   fetch m1 (map lc (tkids (nodeAt ns j))) = Some args).
    { intros m1 H5. rewrite <- F. clear - H5. clearbody lc.
      induction (tkids (nodeAt ns j)) as [|c cs IH]; [reflexivity|]. cbn [map fetch].
      rewrite (H5 (lc c) c) by (auto; left; reflexivity). rewrite IH; [reflexivity|].
      intros r c' Hc' ->. apply (H5 (lc c') c'); auto. right; exact Hc'. }
    (* the result of Do *)
    assert (Do : forall m1 : mstate V, (forall r, r <> lc j -> regs m1 r = regs m r) -> bound m1 = bound m -> cells m1 = cells m ->
                 fresh m <= fresh m1 -> (forall b, b < fresh m -> store m1 b = store m b) ->
                 exists m' a, doOp sem caddr ns m1 j args = Some (m', a) /\
                              Inv (S j) (bind (setReg m' (lc j) a) j a)).
    { intros m1 H1 H2 H3 H4 H5. unfold doOp. rewrite K.
      rewrite (Args m1 H5), Sm, (NA j Hj). unfold malloc. eexists. eexists. split; [reflexivity|].
      eapply (inv_write j m _ (fresh m1) HV I);
        cbn [setReg bind regs bound fresh cells store]; auto; try lia.
      + intros r. unfold updN. destruct (Nat.eqb_spec r (lc j)); auto.
      + left. rewrite H2. reflexivity.
      + intros b Hb N. unfold updN. destruct (Nat.eqb_spec b (fresh m1)); [contradiction|auto].
      + intros _. split; [lia|]. intros i HVi Hi L. apply Fresh; auto.
      + intros O. contradiction.
      + congruence.
      + unfold updN. rewrite Nat.eqb_refl. exact Hv. }
    (* the result of UsePreallocDo *)
    assert (Pre : forall (m1 : mstate V) p, (forall r, r <> lc j -> regs m1 r = regs m r) -> bound m1 = bound m -> cells m1 = cells m ->
                 fresh m <= fresh m1 -> (forall b, b < fresh m -> store m1 b = store m b) ->
                 fresh m0 <= p -> p < fresh m1 ->
                 (forall i, hasValue ns i -> i < j -> latest (S j) i -> regs m (lc i) <> Some p) ->
                 tpreok (nodeAt ns j) = true ->
                 exists m' a, preDo sem ns m1 j p args = Some (m', a) /\
                              Inv (S j) (bind (setReg m' (lc j) a) j a)).
    { intros m1 p H1 H2 H3 H4 H5 H6 H7 H8 H9. unfold preDo. rewrite H9.
      rewrite (Args m1 H5), Sm. eexists. eexists. split; [reflexivity|].
      eapply (inv_write j m _ p HV I);
        cbn [setReg bind poke regs bound fresh cells store]; auto; try lia.
      + intros r. unfold updN. destruct (Nat.eqb_spec r (lc j)); auto.
      + left. rewrite H2. reflexivity.
      + intros b Hb N. unfold updN. destruct (Nat.eqb_spec b p); [contradiction|auto].
      + intros O. contradiction.
      + congruence.
      + unfold updN. rewrite Nat.eqb_refl. exact Hv. }
    destruct (loc_new_or_kid ns SG NL j HV) as [New|(o & c & _ & X & O & Nth & L)].
    + (* a new register *)
      assert (R : regs m (lc j) = None) by (apply (i_none _ _ I); intros i HVi Hi; apply New; auto).
      destruct (preAt ns j) eqn:P; cbn [app].
      * (* preceded by alloc *)
        set (m1 := setReg (fst (malloc m blank)) (lc j) (fresh m)).
        assert (E1 : exec blank sem caddr ns m (IAlloc j (lc j)) = Some m1).
        { cbn [exec]. rewrite R. reflexivity. }
        assert (R1 : forall r, r <> lc j -> regs m1 r = regs m r).
        { intros r N. cbn. unfold updN. destruct (Nat.eqb_spec r (lc j)); congruence. }
        assert (Rj : regs m1 (lc j) = Some (fresh m)).
        { cbn. unfold updN. rewrite Nat.eqb_refl. reflexivity. }
        assert (S1 : forall b, b < fresh m -> store m1 b = store m b).
        { intros b Hb. cbn. unfold updN. destruct (Nat.eqb_spec b (fresh m)); [lia|reflexivity]. }
        assert (F1 : fetch m1 (map lc (tkids (nodeAt ns j))) = Some args).
        { apply FetchEq. intros r c Hc ->. apply R1. intros Q.
          destruct (sg_kids ns SG j c Hj Hc) as [Hcj HVc]. apply (New c); auto. }
        assert (Ex : exists m', execOp sem caddr ns m1 j (map lc (tkids (nodeAt ns j))) (lc j) true (unsafeAt ns j) = Some m' /\ Inv (S j) m').
        { unfold execOp. rewrite F1, Rj. destruct (tpre (nodeAt ns j)) eqn:T.
          - destruct (Pre m1 (fresh m)) as (m' & a & E & I'); auto; try (cbn; lia).
            + apply (sg_pre ns SG j Hj); auto. unfold preAt in P. apply andb_true_iff in P. tauto.
            + rewrite E. eexists. split; [reflexivity|exact I'].
          - destruct (Do m1) as (m' & a & E & I'); auto; try (cbn; lia).
            rewrite E. eexists. split; [reflexivity|exact I']. }
        destruct Ex as (m' & E & I'). exists m'. split; [|exact I'].
        eapply steps_cons; [exact E1|]. eapply steps_cons; [exact E|]. apply steps_nil.
      * assert (U : unsafeAt ns j = false).
        { unfold unsafeAt. destruct (tover (nodeAt ns j)) as [o|] eqn:O; [|reflexivity].
          rewrite nth_error_map. destruct (nth_error (tkids (nodeAt ns j)) o) as [c|] eqn:Nth; [|reflexivity].
          cbn [option_map]. apply Nat.eqb_neq. apply nth_error_In in Nth.
          destruct (sg_kids ns SG j c Hj Nth) as [Hcj HVc]. apply New; auto. }
        destruct (Do m) as (m' & a & E & I'); auto.
        eexists. split; [|exact I'].
        eapply steps_cons; [|apply steps_nil]. cbn [exec]. unfold execOp. fold lc. rewrite F, R, U, E. reflexivity.
    + (* the register of a dead child *)
      assert (P : preAt ns j = false) by (unfold preAt; rewrite X; apply andb_false_r).
      rewrite P. cbn [app].
      assert (Hc : In c (tkids (nodeAt ns j))) by (eapply nth_error_In; eauto).
      destruct (sg_kids ns SG j c Hj Hc) as [Hcj HVc].
      destruct (loc_shared_spec ns SG NL j c HV HVc Hcj (eq_sym L)) as (NK & _).
      assert (Opc : opish c).
      { left. destruct HVc as [_ [N1 N2]]. unfold kept in NK.
        destruct (tk (nodeAt ns c)); try congruence; tauto. }
      assert (Lc : latest j c).
      { intros k HVk H1 H2. apply (kid_latest ns SG NL j c k); auto. split; auto. }
      destruct (i_val _ _ I c HVc Hcj Lc) as (p & Rc & _ & Hp & _ & Op' & _).
      assert (R : regs m (lc j) = Some p) by (unfold lc in *; rewrite L; exact Rc).
      assert (Sep : forall i, hasValue ns i -> i < j -> latest (S j) i -> regs m (lc i) <> Some p).
      { intros i HVi Hi Li Q.
        destruct (opish_dec i) as [Oi|Oi].
        - assert (lc i <> lc c).
          { intros Q'. apply (Li j HV Hi); [lia|]. unfold lc in *. congruence. }
          apply (i_sep _ _ I i c); auto; [apply latest_S; exact Li | congruence].
        - destruct (i_val _ _ I i HVi Hi (latest_S _ _ Li)) as (b & Rb & _ & _ & _ & _ & Hb).
          rewrite Rb in Q. inversion Q; subst. specialize (Hb Oi). specialize (Op' Opc). lia. }
      assert (Ex : exists m', execOp sem caddr ns m j (map lc (tkids (nodeAt ns j))) (lc j) false (unsafeAt ns j) = Some m' /\ Inv (S j) m').
      { unfold execOp. rewrite F, R. destruct (Do m) as (m' & a & E & I'); auto.
        destruct (tpre (nodeAt ns j)).
        - destruct (tpreok (nodeAt ns j)) eqn:T.
          + destruct (Pre m p) as (m1 & a1 & E1 & I1); auto.
            rewrite E1. eexists. split; [reflexivity|exact I1].
          + assert (preDo sem ns m j p args = None) as -> by (unfold preDo; rewrite T; reflexivity).
            rewrite E. eexists. split; [reflexivity|exact I'].
        - rewrite E. eexists. split; [reflexivity|exact I']. }
      destruct Ex as (m' & E & I'). exists m'. split; [|exact I'].
      eapply steps_cons; [exact E|]. apply steps_nil.
Qed.

(** A node whose operator fails stops the run, and touches no old memory. *)
Lemma node_fail : forall j m vs, j < n -> Inv j m ->
  tk (nodeAt ns j) = TOp \/ tk (nodeAt ns j) = TRandom ->
  evalsAll ns sem inp (tkids (nodeAt ns j)) vs -> sem (top (nodeAt ns j)) vs = None ->
  exists m' k, execAll blank sem caddr ns m (codeOf ns j) = (m', k) /\ k < length (codeOf ns j) /\
               (forall a, a < fresh m0 -> store m' a = store m0 a).
Proof.
  intros j m vs Hj I K A Sm.
  assert (HV : hasValue ns j) by (repeat split; [exact Hj | destruct K; congruence | destruct K; congruence | destruct K; congruence]).
  destruct (kids_ready j m (or_introl HV) I (tkids (nodeAt ns j)) (incl_refl _)) as (args & F & A' & B).
  assert (vs = map (store m) args) as -> by (eapply evalsAll_det; eauto).
  assert (Fail : forall (m1 : mstate V) pre unsafe,
      fetch m1 (map lc (tkids (nodeAt ns j))) = Some args ->
      map (store m1) args = map (store m) args ->
      execOp sem caddr ns m1 j (map lc (tkids (nodeAt ns j))) (lc j) pre unsafe = None).
  { intros m1 pre unsafe F1 S1. unfold execOp. rewrite F1.
    assert (D : doOp sem caddr ns m1 j args = None).
    { unfold doOp. rewrite S1, Sm. destruct (tk (nodeAt ns j)); try reflexivity; destruct K; discriminate. }
    assert (P : forall p, preDo sem ns m1 j p args = None).
    { intros p. unfold preDo. rewrite S1, Sm. destruct (tpreok (nodeAt ns j)); reflexivity. }
    assert (U : unsafeDo sem ns m1 j args = None).
    { unfold unsafeDo. rewrite S1, Sm. destruct (tover (nodeAt ns j)) as [o|]; [|reflexivity].
      destruct (nth_error args o); reflexivity. }
    rewrite D, U. destruct pre; destruct (tpre (nodeAt ns j)); destruct (regs m1 (lc j)); rewrite ?P;
      destruct unsafe; destruct (tunsafe (nodeAt ns j)); reflexivity. }
  assert (C : codeOf ns j = (if preAt ns j then [IAlloc j (lc j)] else []) ++
         [IExec j (map lc (tkids (nodeAt ns j))) (lc j) (preAt ns j) (unsafeAt ns j)]).
  { unfold codeOf. destruct (tk (nodeAt ns j)); try reflexivity; destruct K; discriminate. }
  rewrite C. clear C. destruct (preAt ns j) eqn:P; cbn [app].
  - assert (R : regs m (lc j) = None).
    { apply (i_none _ _ I). intros i HVi Hi Q.
      destruct (loc_shared_spec ns SG NL j i HV HVi Hi Q) as (_ & _ & _ & X).
      unfold preAt in P. rewrite X, andb_false_r in P. discriminate. }
    set (m1 := setReg (fst (malloc m blank)) (lc j) (fresh m)).
    assert (E1 : exec blank sem caddr ns m (IAlloc j (lc j)) = Some m1).
    { cbn [exec]. rewrite R. reflexivity. }
    assert (S1 : forall b, b < fresh m -> store m1 b = store m b).
    { intros b Hb. cbn. unfold updN. destruct (Nat.eqb_spec b (fresh m)); [lia|reflexivity]. }
    exists m1, 1. split; [|split].
    + cbn [execAll]. rewrite E1. cbn [exec]. rewrite Fail; [reflexivity| |].
      * rewrite <- F. clearbody lc. clear - B R.
        revert args B. induction (tkids (nodeAt ns j)) as [|c cs IH]; intros args B; [reflexivity|].
        inversion B as [|? a ? ? [Ra _] B']; subst. cbn [map fetch].
        rewrite (IH _ B').
        assert (regs m1 (lc c) = regs m (lc c)) as ->; [|reflexivity].
        cbn. unfold updN. destruct (Nat.eqb_spec (lc c) (lc j)); [congruence|reflexivity].
      * clear - B S1. revert args B.
        induction (tkids (nodeAt ns j)); intros args B; inversion B as [|? ? ? ? [? ?] ?]; subst; [reflexivity|].
        cbn [map]. f_equal; [apply S1; assumption | auto].
    + cbn [length]. lia.
    + intros a Ha. rewrite S1; [apply (i_store _ _ I); exact Ha|]. pose proof (i_fresh _ _ I). lia.
  - exists m, 0. split; [|split].
    + cbn [execAll exec]. rewrite Fail; auto.
    + cbn [length]. lia.
    + apply (i_store _ _ I).
Qed.

(** Running the code of the first [k] nodes. *)
Lemma prefix_run : forall k, k <= n ->
  (forall i, i < k -> hasValue ns i -> exists v, ev i v) ->
  exists m, steps V blank sem caddr ns m0 (List.concat (map (codeOf ns) (seq 0 k))) m /\ Inv k m.
Proof.
  induction k as [|k IH]; intros Hk Hv.
  - exists m0. split; [apply steps_nil | exact inv0].
  - destruct IH as (m & S1 & I); [lia | intros; apply Hv; auto |].
    destruct (node_step k m) as (m' & S2 & I'); [lia | exact I | intros; apply Hv; auto |].
    exists m'. split; [|exact I']. rewrite seq_S, map_app, concat_app. cbn [map List.concat Nat.add].
    rewrite app_nil_r. eapply steps_app; eauto.
Qed.

(** Either every node has a value, or there is a first operator that fails. *)
Lemma first_failure : forall k, k <= n ->
  (forall i, i < k -> hasValue ns i -> exists v, ev i v) \/
  (exists j vs, j < k /\ (forall i, i < j -> hasValue ns i -> exists v, ev i v) /\
     (tk (nodeAt ns j) = TOp \/ tk (nodeAt ns j) = TRandom) /\
     evalsAll ns sem inp (tkids (nodeAt ns j)) vs /\ sem (top (nodeAt ns j)) vs = None).
Proof.
  induction k as [|k IH]; intros Hk; [left; intros; lia|].
  destruct IH as [IH|(j & vs & Hj & R)]; [lia| |right; exists j, vs; split; [lia | exact R]].
  assert (Hk' : k < n) by lia.
  assert (Kids : exists vs, evalsAll ns sem inp (tkids (nodeAt ns k)) vs).
  { assert (W : forall c, In c (tkids (nodeAt ns k)) -> exists v, ev c v).
    { intros c Hc. destruct (sg_kids ns SG k c Hk' Hc). apply IH; auto. }
    induction (tkids (nodeAt ns k)) as [|c cs IHc].
    - exists []. constructor.
    - destruct IHc as [vs Hvs]; [intros; apply W; right; auto|].
      destruct (W c (or_introl eq_refl)) as [v Hv]. exists (v :: vs). constructor; auto. }
  destruct Kids as [vs Hvs].
  assert (One : (hasValue ns k -> exists v, ev k v) \/
     ((tk (nodeAt ns k) = TOp \/ tk (nodeAt ns k) = TRandom) /\ sem (top (nodeAt ns k)) vs = None)).
  { destruct (tk (nodeAt ns k)) eqn:K.
    - left. intros _. eexists. apply ev_arg; auto.
    - left. intros _. eexists. apply ev_const; auto.
    - destruct (sem (top (nodeAt ns k)) vs) as [v|] eqn:E; [left; intros _; exists v; eapply ev_op; eauto | right; auto].
    - destruct (sem (top (nodeAt ns k)) vs) as [v|] eqn:E; [left; intros _; exists v; eapply ev_op; eauto | right; auto].
    - left. intros [_ [W _]]. congruence.
    - left. intros (_ & _ & W & _). congruence.
    - left. intros (_ & _ & _ & W). congruence. }
  destruct One as [One|[One1 One2]].
  - left. intros i Hi HV. destruct (Nat.eq_dec i k) as [->|]; [auto | apply IH; auto; lia].
  - right. exists k, vs. auto.
Qed.
End Sim.
