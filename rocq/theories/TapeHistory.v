(** Whole runs, and call histories of a tape machine. *)
From Coq Require Import List Arith ZArith Lia Bool.
From Verif Require Import TapeModel TapeSpec TapeIntervals TapeProofs.
Import ListNotations.
Local Open Scope nat_scope.

Lemma firstn_seq0 : forall n k, k <= n -> firstn k (seq 0 n) = seq 0 k.
Proof.
  intros n k H. replace n with (k + (n - k)) at 1 by lia. rewrite seq_app, firstn_app, seq_length.
  rewrite Nat.sub_diag. cbn [firstn]. rewrite app_nil_r, firstn_all2; [reflexivity|].
  rewrite seq_length. lia.
Qed.

Section W.
Variable V : Type.
Variable blank : V.
Variable sem : nat -> list V -> option V.
Variable caddr : nat -> nat.
Variable ns : list tnode.
Variable leaves : list nat.
Hypothesis SG : sortedGraph ns.
Hypothesis NL : noLet ns.
Hypothesis NA : noAlias ns.
Hypothesis NC : noCollision ns.
Hypothesis LV : forall p, In p leaves -> p < length ns.

Let prog := compile ns leaves.
Let run := execAll blank sem caddr ns.

Lemma owns_latest : forall k i, owns ns leaves k i -> latest ns k i.
Proof.
  intros k i (HV & Hi & H) j HVj H1 H2. specialize (H j HVj H1 H2).
  rewrite !(locOf_loc ns NC leaves LV) in H. exact H.
Qed.

Lemma firstn_codes : forall k, k <= length ns ->
  List.concat (firstn k (codes ns leaves)) = List.concat (map (codeOf ns) (seq 0 k)).
Proof.
  intros k Hk. rewrite (codes_eq ns SG NL NC leaves LV). rewrite firstn_map, firstn_seq0 by exact Hk. reflexivity.
Qed.

Lemma compile_codes : prog = List.concat (map (codeOf ns) (seq 0 (length ns))).
Proof. unfold prog, compile. rewrite (codes_eq ns SG NL NC leaves LV). reflexivity. Qed.

Section One.
Variable m0 : mstate V.
Hypothesis RD : ready ns caddr m0.
Let ev := evals ns sem (given ns caddr m0).

Lemma prefix_all : forall k, k <= length ns ->
  (forall i, i < k -> hasValue ns i -> exists v, ev i v) ->
  exists m, run m0 (List.concat (firstn k (codes ns leaves))) =
              (m, length (List.concat (firstn k (codes ns leaves)))) /\
    (forall i, owns ns leaves k i -> exists v, ev i v /\ regValue m (locOf ns leaves i) = Some v /\ nodeValue m i = Some v) /\
    (forall i c, i < k -> tk (nodeAt ns i) = TRead -> tkids (nodeAt ns i) = [c] ->
        exists v, ev c v /\ cells m i = Some v) /\
    (forall a, a < fresh m0 -> store m a = store m0 a) /\
    fresh m0 <= fresh m /\
    (forall i, tk (nodeAt ns i) = TArg -> bound m i = bound m0 i) /\
    (forall r, (forall i, hasValue ns i -> i < k -> locOf ns leaves i <> r) -> regs m r = None).
Proof.
  intros k Hk Hv. rewrite (firstn_codes k Hk).
  destruct (prefix_run V blank sem caddr ns SG NL NA m0 RD k Hk Hv) as (m & St & I).
  exists m. split; [exact St|]. split; [|split; [|split; [|split; [|split]]]].
  - intros i O. destruct (i_val _ _ _ _ _ _ _ I i (proj1 O) (proj1 (proj2 O)) (owns_latest _ _ O))
      as (a & R & B & _ & E & _).
    exists (store m a). split; [exact E|]. unfold regValue, nodeValue.
    rewrite (locOf_loc ns NC leaves LV), R, B. auto.
  - intros i c Hi K Kc. destruct (i_cells _ _ _ _ _ _ _ I i c Hi) as (v & A & B); auto; [lia|].
    exists v. auto.
  - apply (i_store _ _ _ _ _ _ _ I).
  - apply (i_fresh _ _ _ _ _ _ _ I).
  - apply (i_bound _ _ _ _ _ _ _ I).
  - intros r Hr. apply (i_none _ _ _ _ _ _ _ I). intros i HV Hi. rewrite <- (locOf_loc ns NC leaves LV). auto.
Qed.

Lemma concat_split : forall j, j < length ns ->
  prog = List.concat (map (codeOf ns) (seq 0 j)) ++ codeOf ns j ++
         List.concat (map (codeOf ns) (seq (S j) (length ns - S j))).
Proof.
  intros j Hj. rewrite compile_codes.
  replace (length ns) with (j + S (length ns - S j)) at 1 by lia.
  rewrite seq_app, map_app, concat_app. cbn [seq map List.concat Nat.add]. reflexivity.
Qed.

(** The first failing operator stops the run before its own instruction. *)
Lemma run_fails : forall j vs, j < length ns ->
  (forall i, i < j -> hasValue ns i -> exists v, ev i v) ->
  tk (nodeAt ns j) = TOp \/ tk (nodeAt ns j) = TRandom ->
  evalsAll ns sem (given ns caddr m0) (tkids (nodeAt ns j)) vs -> sem (top (nodeAt ns j)) vs = None ->
  exists m k, run m0 prog = (m, k) /\
    length (List.concat (firstn j (codes ns leaves))) <= k <
    length (List.concat (firstn (S j) (codes ns leaves))) /\
    (forall a, a < fresh m0 -> store m a = store m0 a).
Proof.
  intros j vs Hj Hv K A S0.
  assert (Hj' : j <= length ns) by lia.
  destruct (prefix_run V blank sem caddr ns SG NL NA m0 RD j Hj' Hv) as (m & St & I).
  destruct (node_fail V blank sem caddr ns SG NL m0 j m vs Hj I K A S0) as (m' & k & E & Hk & Hs).
  rewrite !firstn_codes by lia. rewrite (concat_split j Hj).
  rewrite (seq_S j 0), map_app, concat_app. cbn [map List.concat Nat.add]. rewrite app_nil_r, app_length.
  exists m', (length (List.concat (map (codeOf ns) (seq 0 j))) + k). split; [|split; [lia | exact Hs]].
  unfold run. rewrite (execAll_app _ _ _ _ _ _ _ _ m St).
  rewrite (execAll_app_fail _ _ _ _ _ _ _ _ _ _ E Hk). reflexivity.
Qed.

Lemma run_keeps_memory : forall m k, run m0 prog = (m, k) ->
  forall a, a < fresh m0 -> store m a = store m0 a.
Proof.
  intros m k E.
  destruct (first_failure V sem caddr ns SG m0 (length ns) (le_n _)) as [All|(j & vs & Hj & Hv & K & A & S0)].
  - destruct (prefix_all (length ns) (le_n _) All) as (m' & E' & _ & _ & Hs & _).
    assert (firstn (length ns) (codes ns leaves) = codes ns leaves) as F.
    { apply firstn_all2. rewrite (codes_eq ns SG NL NC leaves LV), map_length, seq_length. lia. }
    rewrite F in E'. change (List.concat (codes ns leaves)) with prog in E'.
    rewrite E in E'. inversion E'; subst. exact Hs.
  - destruct (run_fails j vs Hj Hv K A S0) as (m' & k' & E' & _ & Hs).
    rewrite E in E'. inversion E'; subst. exact Hs.
Qed.
End One.

Lemma firstn_all_codes : firstn (length ns) (codes ns leaves) = codes ns leaves.
Proof.
  apply firstn_all2. rewrite (codes_eq ns SG NL NC leaves LV), map_length, seq_length. lia.
Qed.

(** ** Histories *)
Hypothesis total : forall o vs, exists v, sem o vs = Some v.

Lemma all_values : forall m0 i, hasValue ns i -> exists v, evals ns sem (given ns caddr m0) i v.
Proof.
  intros m0. destruct (first_failure V sem caddr ns SG m0 (length ns) (le_n _)) as [All|(j & vs & _ & _ & _ & _ & S0)].
  - intros i HV. apply All; [apply HV | exact HV].
  - destruct (total (top (nodeAt ns j)) vs) as [v E]. congruence.
Qed.

Variable v0 : vm V.

(** What holds of a machine between calls. *)
Record okVM (v : vm V) : Prop := {
  ov_pc : (vpc v = 0 /\ forall r, regs (vst v) r = None) \/ vpc v = length prog;
  ov_args : forall i, i < length ns -> tk (nodeAt ns i) = TArg ->
              exists a, bound (vst v) i = Some a /\ a < fresh (vst v);
  ov_consts : forall i, i < length ns -> tk (nodeAt ns i) = TConst -> caddr i < fresh (vst v);
  ov_fresh : fresh (vst v0) <= fresh (vst v);
  ov_store : forall a, a < fresh (vst v0) -> store (vst v) a = store (vst v0) a
}.

Lemma run_ready : forall m, ready ns caddr m ->
  exists m', runAll blank sem caddr ns prog (VM m 0) = (VM m' (length prog), true) /\
    (forall i, owns ns leaves (length ns) i -> exists v, evals ns sem (given ns caddr m) i v /\
        regValue m' (locOf ns leaves i) = Some v /\ nodeValue m' i = Some v) /\
    (forall a, a < fresh m -> store m' a = store m a) /\ fresh m <= fresh m' /\
    (forall i, tk (nodeAt ns i) = TArg -> bound m' i = bound m i) /\
    (forall r, (forall i, hasValue ns i -> i < length ns -> locOf ns leaves i <> r) -> regs m' r = None) /\
    (forall i c, i < length ns -> tk (nodeAt ns i) = TRead -> tkids (nodeAt ns i) = [c] ->
        exists v, evals ns sem (given ns caddr m) c v /\ cells m' i = Some v).
Proof.
  intros m RD.
  destruct (prefix_all m RD (length ns) (le_n _) (fun i _ HV => all_values m i HV))
    as (m' & E & A & R & B & C & D & N).
  rewrite firstn_all_codes in E. change (List.concat (codes ns leaves)) with prog in E.
  exists m'. split; [|repeat split; auto].
  unfold runAll. cbn [vst vpc skipn Nat.add]. fold run. rewrite E. rewrite Nat.leb_refl. reflexivity.
Qed.

Lemma okVM_step : forall v c, okVM v -> goodCall ns v c -> okVM (doCall blank sem caddr ns prog v c).
Proof.
  intros [m pc] c OK G. destruct OK as [P A C F S0]. cbn [vst vpc] in *.
  destruct c as [| |x|i a]; cbn [doCall].
  - destruct P as [[Ep R]|Ep]; subst pc.
    + assert (RD : ready ns caddr m) by (constructor; auto).
      destruct (run_ready m RD) as (m' & E & _ & B1 & B2 & B3 & _).
      rewrite E. cbn [fst]. constructor; cbn [vst vpc]; auto.
      * intros i Hi K. rewrite (B3 i K). destruct (A i Hi K) as (a & ? & ?). exists a. split; auto. lia.
      * intros i Hi K. specialize (C i Hi K). lia.
      * lia.
      * intros a Ha. rewrite B1 by lia. auto.
    + unfold runAll. cbn [vst vpc]. rewrite skipn_all. cbn [execAll]. rewrite Nat.add_0_r. cbn [fst].
      constructor; cbn [vst vpc]; auto.
  - constructor; cbn [reset vst vpc regs bound fresh store]; auto.
  - constructor; cbn [newValue malloc fst vst vpc regs bound fresh store].
    + auto.
    + intros i Hi K. destruct (A i Hi K) as (a & ? & ?). exists a. split; auto.
    + intros i Hi K. specialize (C i Hi K). lia.
    + lia.
    + intros a Ha. unfold updN. destruct (Nat.eqb_spec a (fresh m)); [lia|auto].
  - destruct G as [K Ha]. constructor; cbn [letInput bind vst vpc regs bound fresh store]; auto.
    intros j Hj Kj. unfold updN. destruct (Nat.eqb_spec j i) as [->|]; [exists a; auto | auto].
Qed.

Lemma okVM_history : forall v cs v', history blank sem caddr ns prog v cs v' -> okVM v -> okVM v'.
Proof.
  induction 1 as [|v c cs v' G H IH]; intros OK; [exact OK|]. apply IH. apply okVM_step; auto.
Qed.

Lemma okVM_reset : forall v, okVM v -> ready ns caddr (vst (reset v)).
Proof.
  intros [m pc] [P A C F S0]. constructor; cbn [reset vst regs bound fresh] in *; auto.
Qed.

(** Two ready machines given the same values end with the same values. *)
Lemma same_given_same_evals : forall m1 m2,
  (forall i, i < length ns -> tk (nodeAt ns i) = TArg \/ tk (nodeAt ns i) = TConst ->
     given ns caddr m1 i = given ns caddr m2 i) ->
  forall i v, evals ns sem (given ns caddr m1) i v -> evals ns sem (given ns caddr m2) i v.
Proof.
  intros m1 m2 H. induction i as [i IH] using lt_wf_ind. intros v E.
  inversion E as [? Hi K|? Hi K|? vs ? Hi K A0 S0]; subst.
  - rewrite H by auto. apply ev_arg; auto.
  - rewrite H by auto. apply ev_const; auto.
  - apply ev_op with (vs := vs); auto.
    assert (W : forall c, In c (tkids (nodeAt ns i)) -> c < i) by (intros c Hc; apply (sg_kids ns SG i c Hi Hc)).
    clear - IH W A0. induction A0; constructor; auto.
    + apply IH; auto. apply W. left; reflexivity.
    + apply IHA0. intros; apply W; right; auto.
Qed.

Lemma last_owner : forall k r, k <= length ns ->
  (exists i, owns ns leaves k i /\ locOf ns leaves i = r) \/
  (forall i, hasValue ns i -> i < k -> locOf ns leaves i <> r).
Proof.
  induction k as [|k IH]; intros r Hk; [right; intros; lia|].
  assert (D : hasValue ns k \/ ~ hasValue ns k).
  { unfold hasValue. destruct (tk (nodeAt ns k)); try (left; split; [lia | repeat split; congruence]);
    right; intros (_ & ? & ? & ?); congruence. }
  destruct D as [D|D].
  - destruct (Nat.eq_dec (locOf ns leaves k) r) as [E|N].
    + left. exists k. split; [|exact E]. split; [exact D|]. split; [lia|]. intros; lia.
    + destruct (IH r) as [(i & (HV & Hi & O) & E)|F]; [lia| |].
      * left. exists i. split; [|exact E]. split; [exact HV|]. split; [lia|].
        intros j HVj H1 H2. destruct (Nat.eq_dec j k) as [->|]; [congruence | apply O; auto; lia].
      * right. intros i HVi Hi. destruct (Nat.eq_dec i k) as [->|]; [exact N | apply F; auto; lia].
  - destruct (IH r) as [(i & (HV & Hi & O) & E)|F]; [lia| |].
    + left. exists i. split; [|exact E]. split; [exact HV|]. split; [lia|].
      intros j HVj H1 H2. destruct (Nat.eq_dec j k) as [->|]; [contradiction | apply O; auto; lia].
    + right. intros i HVi Hi. destruct (Nat.eq_dec i k) as [->|]; [contradiction | apply F; auto; lia].
Qed.

Lemma ready_same : forall m1 m2, ready ns caddr m1 -> ready ns caddr m2 ->
  (forall i, i < length ns -> tk (nodeAt ns i) = TArg \/ tk (nodeAt ns i) = TConst ->
     given ns caddr m1 i = given ns caddr m2 i) ->
  forall r, regValue (vst (fst (runAll blank sem caddr ns prog (VM m1 0)))) r =
            regValue (vst (fst (runAll blank sem caddr ns prog (VM m2 0)))) r.
Proof.
  intros m1 m2 R1 R2 H r.
  destruct (run_ready m1 R1) as (m1' & E1 & A1 & _ & _ & _ & N1 & _).
  destruct (run_ready m2 R2) as (m2' & E2 & A2 & _ & _ & _ & N2 & _).
  rewrite E1, E2. cbn [fst vst].
  destruct (last_owner (length ns) r (le_n _)) as [(i & O & <-)|F].
  - destruct (A1 i O) as (x & Ex & -> & _). destruct (A2 i O) as (y & Ey & -> & _).
    f_equal. apply (same_given_same_evals m1 m2 H) in Ex. eapply evals_det; eauto.
  - unfold regValue. rewrite (N1 r F), (N2 r F). reflexivity.
Qed.
End W.

(** ** Program counter: any program, any meaning of the operators *)
Section PC.
Variable V : Type.
Variable blank : V.
Variable sem : nat -> list V -> option V.
Variable caddr : nat -> nat.
Variable ns : list tnode.

Lemma execAll_stop : forall is m m' k, execAll blank sem caddr ns m is = (m', k) -> k < length is ->
  exists ins, nth_error is k = Some ins /\ exec blank sem caddr ns m' ins = None.
Proof.
  induction is as [|i is IH]; cbn [execAll length]; intros m m' k H Hk; [lia|].
  destruct (exec blank sem caddr ns m i) as [m1|] eqn:E.
  - destruct (execAll blank sem caddr ns m1 is) as [m2 k2] eqn:E2. inversion H; subst.
    apply (IH m1); auto. lia.
  - inversion H; subst. exists i. auto.
Qed.

Lemma runAll_pc : forall prog v v' ok, vpc v <= length prog ->
  runAll blank sem caddr ns prog v = (v', ok) ->
  vpc v <= vpc v' <= length prog /\ (ok = true <-> vpc v' = length prog) /\
  (ok = false -> exists ins, nth_error prog (vpc v') = Some ins /\ exec blank sem caddr ns (vst v') ins = None).
Proof.
  intros prog v v' ok Hpc H. unfold runAll in H.
  destruct (execAll blank sem caddr ns (vst v) (skipn (vpc v) prog)) as [m k] eqn:E.
  inversion H; subst; clear H. cbn [vst vpc].
  assert (Hk := execAll_len _ _ _ _ _ _ _ _ _ E). rewrite skipn_length in Hk.
  split; [lia|]. split.
  - destruct (Nat.leb_spec (length prog) (vpc v + k)); split; intros; try discriminate; try lia; reflexivity.
  - intros Q. apply Nat.leb_gt in Q.
    destruct (execAll_stop _ _ _ _ E) as (ins & Hn & Hx); [rewrite skipn_length; lia|].
    exists ins. split; [|exact Hx]. rewrite <- Hn.
    rewrite <- (firstn_skipn (vpc v) prog) at 1.
    rewrite nth_error_app2; rewrite firstn_length_le by lia; [f_equal; lia | lia].
Qed.

Lemma runAll_done : forall prog (v : vm V), vpc v = length prog ->
  runAll blank sem caddr ns prog v = (v, true).
Proof.
  intros prog [m pc] H. cbn [vpc] in H. subst. unfold runAll. cbn [vst vpc].
  rewrite skipn_all. cbn [execAll]. rewrite Nat.add_0_r, Nat.leb_refl. reflexivity.
Qed.

Lemma nth_error_skipn_cons : forall (l : list instr) k x, nth_error l k = Some x ->
  skipn k l = x :: skipn (S k) l.
Proof.
  induction l as [|a l IH]; intros [|k] x H; cbn in *; try discriminate; [congruence|]. apply IH. exact H.
Qed.

Lemma runAll_stuck : forall prog v v', vpc v <= length prog ->
  runAll blank sem caddr ns prog v = (v', false) ->
  runAll blank sem caddr ns prog v' = (v', false).
Proof.
  intros prog v [m pc] Hpc H. destruct (runAll_pc prog v _ false Hpc H) as (B & C & D).
  destruct (D eq_refl) as (ins & Hn & Hx). cbn [vst vpc] in *.
  unfold runAll. cbn [vst vpc]. rewrite (nth_error_skipn_cons _ _ _ Hn). cbn [execAll]. rewrite Hx.
  rewrite Nat.add_0_r. f_equal. apply Nat.leb_gt.
  assert (pc <> length prog) by (intros Q; apply C in Q; discriminate). lia.
Qed.
End PC.
