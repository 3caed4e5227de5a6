(** Compiled programs and the tape machine: C09, C10, C11, C44, C50, C51, C52. *)
From Coq Require Import List Arith ZArith Lia Bool.
From Verif Require Import TapeModel TapeSpec TapeIntervals TapeProofs TapeHistory.
Import ListNotations.
Local Open Scope nat_scope.

(** ** The example: [a = x @ w + c] (Read into a variable), [b = a * x]. *)
Definition arg_ h := TNode TArg [] 0 false false None false false false None false h.
Definition bin_ op ks h := TNode TOp ks op true false (Some 0) true true true None false h.
Definition exT : list tnode :=
  [ arg_ 0; arg_ 1;
    TNode TConst [] 0 true false None false false false None false 2;
    TNode TOp [0; 1] 1 true true None true true false None false 3;
    bin_ 2 [3; 2] 4;
    TNode TRead [4] 0 true false (Some 0) false false false None false 5;
    bin_ 1 [4; 0] 6 ].
Definition exSem (op : nat) (vs : list nat) : option nat :=
  match op, vs with
  | 1, [a; b] => Some (a * b)
  | 2, [a; b] => Some (a + b)
  | _, _ => None
  end.
Definition exM : mstate nat :=
  MState (fun _ => None) (fun a => match a with 0 => 5 | 1 => 7 | 2 => 3 | _ => 0 end) 3
         (fun i => match i with 0 => Some 0 | 1 => Some 1 | _ => None end) (fun _ => None).
Definition exCaddr (i : nat) := i.

Lemma exT_sorted : sortedGraph exT.
Proof.
  constructor; intros i; do 7 (destruct i as [|i]; [cbn; intros; unfold hasValue; cbn;
    repeat match goal with
           | H : _ \/ _ |- _ => destruct H
           | H : False |- _ => destruct H
           | H : Some _ = Some _ |- _ => injection H as H
           end; subst; try discriminate;
    repeat split; cbn; try lia; try discriminate; try reflexivity |]); cbn; intros; lia.
Qed.
Lemma exT_noLet : noLet exT.
Proof. intros i Hi. do 7 (destruct i as [|i]; [cbn; discriminate|]). cbn in Hi. lia. Qed.
Lemma exT_noAlias : noAlias exT.
Proof. intros i Hi. do 7 (destruct i as [|i]; [reflexivity|]). cbn in Hi. lia. Qed.
Lemma exT_noCollision : noCollision exT.
Proof.
  assert (H : forall k, k < 7 -> thash (nodeAt exT k) = k).
  { intros k Hk. do 7 (destruct k as [|k]; [reflexivity|]). lia. }
  intros i j Hi Hj E. cbn in Hi, Hj. rewrite !H in E by lia. exact E.
Qed.
Lemma exLeaves : forall p, In p [0; 1; 2] -> p < length exT.
Proof. cbn. intros p [<-|[<-|[<-|[]]]]; lia. Qed.
Lemma exM_ready : ready exT exCaddr exM.
Proof.
  constructor.
  - reflexivity.
  - intros i Hi K. do 7 (destruct i as [|i]; [cbn in K; try discriminate; (eexists; split; [reflexivity|cbn; lia])|]).
    cbn in Hi. lia.
  - intros i Hi K. do 7 (destruct i as [|i]; [cbn in K; try discriminate; unfold exCaddr; cbn; lia|]).
    cbn in Hi. lia.
Qed.

Ltac machine :=
  cbn [execAll exec execOp fetch doOp preDo unsafeDo regs store fresh bound cells setReg bind poke malloc
       updN Nat.eqb nth_error map nodeAt nth tk talias top tpre tpreok tunsafe tover tkids arg_ bin_
       fst snd vst vpc regValue nodeValue skipn runAll Nat.add].

(** ** C44 *)
(** The interval of a node starts at its definition.  Inputs, constants, random
    sources and gradients of inputs live to the end; any other node lives to its
    last use (to its own position if it has none). *)
Theorem C44_live_range : forall ns i, sortedGraph ns -> hasValue ns i ->
  lo (buildIntervals ns i) = Z.of_nat i /\
  (kept ns i -> hi (buildIntervals ns i) = Z.of_nat (length ns)) /\
  (~ kept ns i -> exists e, hi (buildIntervals ns i) = Z.of_nat e /\
       (forall k, usedBy ns i k -> k <= e) /\
       ((e = i /\ forall k, ~ usedBy ns i k) \/ usedBy ns i e)).
Proof.
  intros ns i SG HV. split; [|split].
  - exact (interval_start ns i (proj1 HV)).
  - exact (proj1 (interval_end ns SG i (proj1 HV))).
  - exact (proj2 (interval_end ns SG i (proj1 HV)) HV).
Qed.
Print Assumptions C44_live_range.

Example C44_live_range_ex :
  map (fun i => (lo (buildIntervals exT i), hi (buildIntervals exT i))) [0; 2; 3; 4; 6] =
  [(0, 7); (2, 7); (3, 4); (4, 6); (6, 6)]%Z.
Proof. vm_compute. reflexivity. Qed.

(** A register passes to a later node only when every use of the earlier node is
    over; inputs, constants and gradients of inputs never give up theirs. *)
Theorem C44_reuse_after_last_use : forall ns leaves c i,
  sortedGraph ns -> noLet ns -> noCollision ns -> (forall p, In p leaves -> p < length ns) ->
  hasValue ns c -> hasValue ns i -> c < i -> locOf ns leaves c = locOf ns leaves i ->
  ~ kept ns c /\ (forall k, usedBy ns c k -> k <= i).
Proof.
  intros ns leaves c i SG NL NC LV HVc HVi Hc E.
  rewrite !(locOf_loc ns NC leaves LV) in E.
  destruct (loc_shared_spec ns SG NL i c HVi HVc Hc E) as (A & B & _). auto.
Qed.
Print Assumptions C44_reuse_after_last_use.

Example C44_reuse_ex : map (locOf exT [0; 1; 2]) [0; 1; 2; 3; 4; 6] = [0; 1; 2; 3; 3; 3].
Proof. vm_compute. reflexivity. Qed.

(** ** C09 *)
(** Run the instructions of the first [k] nodes: every node that has not given
    its register away holds the value of direct evaluation, both in its register
    and as the node's own value. *)
Theorem C09_every_step :
  forall V (blank : V) sem caddr ns leaves m0 k,
  sortedGraph ns -> noLet ns -> noAlias ns -> noCollision ns ->
  (forall p, In p leaves -> p < length ns) -> ready ns caddr m0 -> k <= length ns ->
  (forall i, i < k -> hasValue ns i -> exists v, evals ns sem (given ns caddr m0) i v) ->
  let code := List.concat (firstn k (codes ns leaves)) in
  exists m, execAll blank sem caddr ns m0 code = (m, length code) /\
    forall i, owns ns leaves k i ->
      exists v, evals ns sem (given ns caddr m0) i v /\
                regValue m (locOf ns leaves i) = Some v /\ nodeValue m i = Some v.
Proof.
  intros V blank sem caddr ns leaves m0 k SG NL NA NC LV RD Hk Hv.
  destruct (prefix_all V blank sem caddr ns leaves SG NL NA NC LV m0 RD k Hk Hv) as (m & E & A & _).
  exists m. auto.
Qed.
Print Assumptions C09_every_step.

(** In particular a node that has just been executed holds its value. *)
Theorem C09_when_produced :
  forall V (blank : V) sem caddr ns leaves m0 j,
  sortedGraph ns -> noLet ns -> noAlias ns -> noCollision ns ->
  (forall p, In p leaves -> p < length ns) -> ready ns caddr m0 -> hasValue ns j ->
  (forall i, i <= j -> hasValue ns i -> exists v, evals ns sem (given ns caddr m0) i v) ->
  exists m v, fst (execAll blank sem caddr ns m0 (List.concat (firstn (S j) (codes ns leaves)))) = m /\
    evals ns sem (given ns caddr m0) j v /\
    regValue m (locOf ns leaves j) = Some v /\ nodeValue m j = Some v.
Proof.
  intros V blank sem caddr ns leaves m0 j SG NL NA NC LV RD HV Hv.
  destruct (prefix_all V blank sem caddr ns leaves SG NL NA NC LV m0 RD (S j)) as (m & E & A & _).
  - exact (proj1 HV).
  - intros i Hi. apply Hv. lia.
  - destruct (A j) as (v & Ev & R & B).
    + split; [exact HV|]. split; [lia|]. intros; lia.
    + exists m, v. rewrite E. auto.
Qed.
Print Assumptions C09_when_produced.

(** At the end every kept node (inputs, constants, gradients of inputs) and
    every node without a user holds its value, and every [Read] variable holds the
    value of the node it reads. *)
Theorem C09_at_the_end :
  forall V (blank : V) sem caddr ns leaves m0,
  sortedGraph ns -> noLet ns -> noAlias ns -> noCollision ns ->
  (forall p, In p leaves -> p < length ns) -> ready ns caddr m0 ->
  (forall i, hasValue ns i -> exists v, evals ns sem (given ns caddr m0) i v) ->
  exists m, runAll blank sem caddr ns (compile ns leaves) (VM m0 0) =
              (VM m (length (compile ns leaves)), true) /\
    (forall i, hasValue ns i -> kept ns i \/ (forall k, ~ usedBy ns i k) ->
       exists v, evals ns sem (given ns caddr m0) i v /\
                 regValue m (locOf ns leaves i) = Some v /\ nodeValue m i = Some v) /\
    (forall i c, i < length ns -> tk (nodeAt ns i) = TRead -> tkids (nodeAt ns i) = [c] ->
       exists v, evals ns sem (given ns caddr m0) c v /\ cells m i = Some v).
Proof.
  intros V blank sem caddr ns leaves m0 SG NL NA NC LV RD Hv.
  destruct (prefix_all V blank sem caddr ns leaves SG NL NA NC LV m0 RD (length ns) (le_n _)
             (fun i _ H => Hv i H)) as (m & E & A & C & _).
  rewrite (firstn_all_codes ns leaves SG NL NC LV) in E. fold (compile ns leaves) in E.
  exists m. split; [|split; [|exact C]].
  - unfold runAll. cbn [vst vpc skipn Nat.add]. rewrite E, Nat.leb_refl. reflexivity.
  - intros i HV K. apply A. split; [exact HV|]. split; [exact (proj1 HV)|].
    intros j HVj H1 _ Q.
    rewrite !(locOf_loc ns NC leaves LV) in Q. apply eq_sym in Q.
    destruct (loc_shared_spec ns SG NL j i HVj HV H1 Q) as (NK & _ & _).
    destruct K as [K|K]; [contradiction|].
    (* nobody reads [i], so nobody can have taken over its register *)
    clear - SG NL HV HVj H1 Q K.
    assert (G : forall j, hasValue ns j -> i < j -> loc ns i <> loc ns j).
    { induction j0 as [j0 IH] using lt_wf_ind. intros HVj0 Hij Q0.
      destruct (loc_new_or_kid ns SG NL j0 HVj0) as [N|(o & c & _ & _ & _ & Nth & L)].
      - apply (N i HV Hij). exact Q0.
      - assert (Hin := nth_error_In _ _ Nth).
        destruct (sg_kids ns SG j0 c (proj1 HVj0) Hin) as [Hc HVc].
        destruct (Nat.lt_trichotomy i c) as [Q1|[->|Q1]].
        + apply (IH c Hc HVc Q1). congruence.
        + apply (K j0). split; [exact (proj1 HVj0) | exact Hin].
        + apply (kid_latest ns SG NL j0 c i); auto; [split; [exact (proj1 HVj0) | exact Hin] | congruence]. }
    apply (G j HVj H1 Q).
Qed.
Print Assumptions C09_at_the_end.

Definition exFinal : mstate nat :=
  vst (fst (runAll 0 exSem exCaddr exT (compile exT [0; 1; 2]) (VM exM 0))).

(** [b = (5*7+3)*5 = 190], read variable [38]; hypotheses of the theorems. *)
Example C09_ex :
  regValue exFinal (locOf exT [0; 1; 2] 6) = Some 190 /\ cells exFinal 5 = Some 38 /\
  (forall i, hasValue exT i -> exists v, evals exT exSem (given exT exCaddr exM) i v).
Proof.
  split; [vm_compute; reflexivity|]. split; [vm_compute; reflexivity|].
  assert (E0 : evals exT exSem (given exT exCaddr exM) 0 5) by (change 5 with (given exT exCaddr exM 0); apply ev_arg; [cbn; lia | reflexivity]).
  assert (E1 : evals exT exSem (given exT exCaddr exM) 1 7) by (change 7 with (given exT exCaddr exM 1); apply ev_arg; [cbn; lia | reflexivity]).
  assert (E2 : evals exT exSem (given exT exCaddr exM) 2 3) by (change 3 with (given exT exCaddr exM 2); apply ev_const; [cbn; lia | reflexivity]).
  assert (E3 : evals exT exSem (given exT exCaddr exM) 3 35).
  { apply (ev_op _ _ _ _ 3 [5; 7]); [cbn; lia | left; reflexivity | repeat constructor; assumption | reflexivity]. }
  assert (E4 : evals exT exSem (given exT exCaddr exM) 4 38).
  { apply (ev_op _ _ _ _ 4 [35; 3]); [cbn; lia | left; reflexivity | repeat constructor; assumption | reflexivity]. }
  assert (E6 : evals exT exSem (given exT exCaddr exM) 6 190).
  { apply (ev_op _ _ _ _ 6 [38; 5]); [cbn; lia | left; reflexivity | repeat constructor; assumption | reflexivity]. }
  intros i (Hi & N1 & N2 & N3). do 7 (destruct i as [|i]; [eauto; cbn in N2; congruence|]). cbn in Hi. lia.
Qed.

(** If an operator fails, the run stops at the instructions of the first node
    (in program order) whose operator fails. *)
Theorem C09_stops_at_first_failure :
  forall V (blank : V) sem caddr ns leaves m0 j vs,
  sortedGraph ns -> noLet ns -> noAlias ns -> noCollision ns ->
  (forall p, In p leaves -> p < length ns) -> ready ns caddr m0 -> j < length ns ->
  (forall i, i < j -> hasValue ns i -> exists v, evals ns sem (given ns caddr m0) i v) ->
  tk (nodeAt ns j) = TOp \/ tk (nodeAt ns j) = TRandom ->
  evalsAll ns sem (given ns caddr m0) (tkids (nodeAt ns j)) vs ->
  sem (top (nodeAt ns j)) vs = None ->
  exists v', runAll blank sem caddr ns (compile ns leaves) (VM m0 0) = (v', false) /\
    length (List.concat (firstn j (codes ns leaves))) <= vpc v' <
    length (List.concat (firstn (S j) (codes ns leaves))).
Proof.
  intros V blank sem caddr ns leaves m0 j vs SG NL NA NC LV RD Hj Hv K A S0.
  destruct (run_fails V blank sem caddr ns leaves SG NL NA NC LV m0 RD j vs Hj Hv K A S0)
    as (m & k & E & Hk & _).
  exists (VM m k). cbn [vpc]. split; [|exact Hk].
  unfold runAll. cbn [vst vpc skipn Nat.add]. rewrite E. f_equal.
  apply Nat.leb_gt. eapply Nat.lt_le_trans; [apply Hk|].
  unfold compile. rewrite <- (firstn_skipn (S j) (codes ns leaves)) at 2.
  rewrite concat_app, app_length. lia.
Qed.
Print Assumptions C09_stops_at_first_failure.

Definition failSem (op : nat) (vs : list nat) : option nat :=
  match op with 2 => None | _ => exSem op vs end.
Example C09_stops_ex :
  let r := runAll 0 failSem exCaddr exT (compile exT [0; 1; 2]) (VM exM 0) in
  snd r = false /\ nth_error (compile exT [0; 1; 2]) (vpc (fst r)) = Some (IExec 4 [3; 2] 3 false true).
Proof. vm_compute. auto. Qed.

(** ** C10 *)
(** Whatever the operators do (including failing), memory that existed before
    the run (inputs, constants) is not written. *)
Theorem C10_inputs_untouched :
  forall V (blank : V) sem caddr ns leaves m0,
  sortedGraph ns -> noLet ns -> noAlias ns -> noCollision ns ->
  (forall p, In p leaves -> p < length ns) -> ready ns caddr m0 ->
  forall a, a < fresh m0 ->
    store (vst (fst (runAll blank sem caddr ns (compile ns leaves) (VM m0 0)))) a = store m0 a.
Proof.
  intros V blank sem caddr ns leaves m0 SG NL NA NC LV RD a Ha.
  unfold runAll. cbn [vst vpc skipn].
  destruct (execAll blank sem caddr ns m0 (compile ns leaves)) as [m k] eqn:E. cbn [fst vst].
  exact (run_keeps_memory V blank sem caddr ns leaves SG NL NA NC LV m0 RD m k E a Ha).
Qed.
Print Assumptions C10_inputs_untouched.

Example C10_inputs_untouched_ex : map (store exFinal) [0; 1; 2] = [5; 7; 3].
Proof. vm_compute. reflexivity. Qed.

(** [r = Reshape(x); y = r + b]: the sum is written into the caller's [x]. *)
Definition reshapeProg : list tnode :=
  [ arg_ 0; arg_ 1;
    TNode TOp [0] 0 true false (Some 0) false false true (Some 0) false 2;
    bin_ 1 [2; 1] 3 ].

Lemma reshapeProg_sorted : sortedGraph reshapeProg.
Proof.
  constructor; intros i; do 4 (destruct i as [|i]; [cbn; intros; unfold hasValue; cbn;
    repeat match goal with
           | H : _ \/ _ |- _ => destruct H
           | H : False |- _ => destruct H
           | H : Some _ = Some _ |- _ => injection H as H
           end; subst; try discriminate;
    repeat split; cbn; try lia; try discriminate; try reflexivity |]); cbn; intros; lia.
Qed.

Theorem C10_reshape_refuted :
  forall V (blank : V) sem caddr m0 x b ax ab s,
  (forall d, sem 0 [d] = Some d) ->            (* reshape keeps the data *)
  sem 1 [x; b] = Some s ->
  ready reshapeProg caddr m0 ->
  bound m0 0 = Some ax -> bound m0 1 = Some ab -> store m0 ax = x -> store m0 ab = b ->
  store (vst (fst (runAll blank sem caddr reshapeProg (compile reshapeProg [0; 1]) (VM m0 0)))) ax = s.
Proof.
  intros V blank sem caddr m0 x b ax ab s Hid Hs RD Bx Bb Hx Hb.
  assert (C : compile reshapeProg [0; 1] =
    [ILoad 0 0; ILoad 1 1; IExec 2 [0] 2 false false; IExec 3 [2; 1] 2 false true]) by (vm_compute; reflexivity).
  rewrite C. pose proof (rd_regs _ _ _ _ RD) as R. unfold runAll. machine. rewrite Bx. machine. rewrite Bb.
  unfold execOp, reshapeProg. machine. rewrite R. machine. rewrite Hid. machine.
  rewrite Hx, Hb, Hs. machine. unfold updN. rewrite Nat.eqb_refl. reflexivity.
Qed.
Print Assumptions C10_reshape_refuted.

Example C10_reshape_refuted_ex :
  let sem op vs := match op, vs with 0, [a] => Some a | 1, [a; b] => Some (a + b) | _, _ => None end in
  store (vst (fst (runAll 0 sem exCaddr reshapeProg (compile reshapeProg [0; 1]) (VM exM 0)))) 0 = 12.
Proof. vm_compute. reflexivity. Qed.

(** ** C11 *)
(** For any program: RunAll succeeds exactly when the program counter reaches the
    end; then another RunAll changes nothing.  After an error the counter is at
    the instruction that fails, and another RunAll without Reset fails there
    again. *)
Theorem C11_run_again :
  forall V (blank : V) sem caddr ns prog v v' ok,
  vpc v <= length prog -> runAll blank sem caddr ns prog v = (v', ok) ->
  runAll blank sem caddr ns prog v' = (v', ok) /\
  (ok = true <-> vpc v' = length prog) /\
  (ok = false -> exists ins, nth_error prog (vpc v') = Some ins /\ exec blank sem caddr ns (vst v') ins = None).
Proof.
  intros V blank sem caddr ns prog v v' ok Hpc H.
  destruct (runAll_pc V blank sem caddr ns prog v v' ok Hpc H) as (A & B & C).
  split; [|split; [exact B | exact C]].
  destruct ok.
  - apply runAll_done. apply B. reflexivity.
  - apply (runAll_stuck V blank sem caddr ns prog v v' Hpc H).
Qed.
Print Assumptions C11_run_again.

(** A finished machine ignores new inputs until Reset: registers stay as they
    are. *)
Theorem C11_let_without_reset :
  forall V (blank : V) sem caddr ns prog v v' i a,
  vpc v <= length prog -> runAll blank sem caddr ns prog v = (v', true) ->
  runAll blank sem caddr ns prog (letInput v' i a) = (letInput v' i a, true).
Proof.
  intros V blank sem caddr ns prog v v' i a Hpc H.
  destruct (runAll_pc V blank sem caddr ns prog v v' true Hpc H) as (_ & B & _).
  apply runAll_done. cbn [letInput vpc]. apply B. reflexivity.
Qed.
Print Assumptions C11_let_without_reset.

(** After any sequence of RunAll, Reset and Let, Reset followed by RunAll
    succeeds and leaves in every register what a fresh machine [m1] with the same
    input and constant values has; kept nodes and unused nodes hold their values. *)
Theorem C11_reset_repeats :
  forall V (blank : V) sem caddr ns leaves v0 cs v m1,
  sortedGraph ns -> noLet ns -> noAlias ns -> noCollision ns ->
  (forall p, In p leaves -> p < length ns) -> (forall o vs, exists x, sem o vs = Some x) ->
  ready ns caddr (vst v0) -> vpc v0 = 0 ->
  history blank sem caddr ns (compile ns leaves) v0 cs v ->
  ready ns caddr m1 ->
  (forall i, i < length ns -> tk (nodeAt ns i) = TArg \/ tk (nodeAt ns i) = TConst ->
     given ns caddr m1 i = given ns caddr (vst v) i) ->
  snd (runAll blank sem caddr ns (compile ns leaves) (reset v)) = true /\
  forall r, regValue (vst (fst (runAll blank sem caddr ns (compile ns leaves) (reset v)))) r =
            regValue (vst (fst (runAll blank sem caddr ns (compile ns leaves) (VM m1 0)))) r.
Proof.
  intros V blank sem caddr ns leaves v0 cs v m1 SG NL NA NC LV T RD P0 H R1 G.
  assert (OK0 : okVM V caddr ns leaves v0 v0).
  { constructor; auto; [left; split; [exact P0 | apply (rd_regs _ _ _ _ RD)] | apply (rd_args _ _ _ _ RD) |
      apply (rd_consts _ _ _ _ RD)]. }
  assert (OK := okVM_history V blank sem caddr ns leaves SG NL NA NC LV T v0 v0 cs v H OK0).
  assert (R2 := okVM_reset V caddr ns leaves v0 v OK).
  destruct (run_ready V blank sem caddr ns leaves SG NL NA NC LV T _ R2) as (m' & E & _).
  assert (Er : reset v = VM (vst (reset v)) 0) by reflexivity.
  split.
  - rewrite Er, E. reflexivity.
  - intros r. rewrite Er. apply ready_same; auto.
    intros i Hi K. rewrite (G i Hi K). reflexivity.
Qed.
Print Assumptions C11_reset_repeats.

(** Inputs keep their contents through the whole history. *)
Theorem C11_history_keeps_inputs :
  forall V (blank : V) sem caddr ns leaves v0 cs v,
  sortedGraph ns -> noLet ns -> noAlias ns -> noCollision ns ->
  (forall p, In p leaves -> p < length ns) -> (forall o vs, exists x, sem o vs = Some x) ->
  ready ns caddr (vst v0) -> vpc v0 = 0 ->
  history blank sem caddr ns (compile ns leaves) v0 cs v ->
  forall a, a < fresh (vst v0) -> store (vst v) a = store (vst v0) a.
Proof.
  intros V blank sem caddr ns leaves v0 cs v SG NL NA NC LV T RD P0 H.
  assert (OK0 : okVM V caddr ns leaves v0 v0).
  { constructor; auto; [left; split; [exact P0 | apply (rd_regs _ _ _ _ RD)] | apply (rd_args _ _ _ _ RD) |
      apply (rd_consts _ _ _ _ RD)]. }
  exact (ov_store _ _ _ _ _ _ (okVM_history V blank sem caddr ns leaves SG NL NA NC LV T v0 v0 cs v H OK0)).
Qed.
Print Assumptions C11_history_keeps_inputs.

Definition exTot (op : nat) (vs : list nat) : option nat :=
  match exSem op vs with Some x => Some x | None => Some 0 end.
Example C11_ex :
  let calls := [CRun; CRun; CNew 10; CLet 0 4; CRun] in
  let v := fold_left (doCall 0 exTot exCaddr exT (compile exT [0; 1; 2])) calls (VM exM 0) in
  history 0 exTot exCaddr exT (compile exT [0; 1; 2]) (VM exM 0) calls v /\
  (forall o vs, exists x, exTot o vs = Some x) /\
  regValue (vst v) 3 = Some 190 /\
  regValue (vst (fst (runAll 0 exTot exCaddr exT (compile exT [0; 1; 2]) (reset v)))) 3 = Some 730.
Proof.
  split; [|split; [|split]].
  - cbn [fold_left]. do 3 (apply h_cons; [exact I|]).
    apply h_cons; [split; [reflexivity | vm_compute; lia]|].
    apply h_cons; [exact I|]. apply h_nil.
  - intros o vs. unfold exTot. destruct (exSem o vs); eauto.
  - vm_compute. reflexivity.
  - vm_compute. reflexivity.
Qed.

(** ** C50: the value of an intermediate node *)
(** [y = f(x); z = y + b]: after the run, [y.Value()] is the value of [z]. *)
Definition staleProg : list tnode :=
  [ arg_ 0; arg_ 1; TNode TOp [0] 0 true false None false false false None false 2; bin_ 1 [2; 1] 3 ].

Theorem C50_value_of_intermediate_refuted :
  forall V (blank : V) sem caddr m0 x b ax ab y z,
  sem 0 [x] = Some y -> sem 1 [y; b] = Some z ->
  ready staleProg caddr m0 ->
  bound m0 0 = Some ax -> bound m0 1 = Some ab -> store m0 ax = x -> store m0 ab = b ->
  let m := vst (fst (runAll blank sem caddr staleProg (compile staleProg [0; 1]) (VM m0 0))) in
  nodeValue m 3 = Some z /\ nodeValue m 2 = Some z.
Proof.
  intros V blank sem caddr m0 x b ax ab y z Hy Hz RD Bx Bb Hx Hb.
  assert (C : compile staleProg [0; 1] =
    [ILoad 0 0; ILoad 1 1; IExec 2 [0] 2 false false; IExec 3 [2; 1] 2 false true]) by (vm_compute; reflexivity).
  assert (Hax : ax < fresh m0).
  { destruct (rd_args _ _ _ _ RD 0) as (a & E & L); [cbn; lia | reflexivity|]. congruence. }
  assert (Hab : ab < fresh m0).
  { destruct (rd_args _ _ _ _ RD 1) as (a & E & L); [cbn; lia | reflexivity|]. congruence. }
  rewrite C. pose proof (rd_regs _ _ _ _ RD) as R. unfold runAll. machine. rewrite Bx. machine. rewrite Bb.
  unfold execOp, staleProg. machine. rewrite R. machine. rewrite Hx, Hy. machine.
  unfold updN. rewrite Nat.eqb_refl. destruct (Nat.eqb_spec ab (fresh m0)); [lia|].
  rewrite Hb, Hz. unfold nodeValue. machine. unfold updN. machine. rewrite Nat.eqb_refl. auto.
Qed.
Print Assumptions C50_value_of_intermediate_refuted.

Example C50_ex :
  let sem op vs := match op, vs with 0, [a] => Some (a * a) | 1, [a; b] => Some (a + b) | _, _ => None end in
  let m := vst (fst (runAll 0 sem exCaddr staleProg (compile staleProg [0; 1]) (VM exM 0))) in
  (nodeValue m 2, nodeValue m 3) = (Some 32, Some 32).
Proof. vm_compute. reflexivity. Qed.

(** ** C51: a hash collision between two operators *)
(** [u = f(x); v = g(x)] with equal hashes: only [u] is executed, both nodes share
    its register, so the register of [v] holds [f(x)]. *)
Definition collideProg : list tnode :=
  [ arg_ 0; TNode TOp [0] 0 true false None false false false None false 9;
            TNode TOp [0] 1 true false None false false false None false 9 ].

Theorem C51_collision_refuted :
  forall V (blank : V) sem caddr m0 x ax u,
  sem 0 [x] = Some u -> ready collideProg caddr m0 -> bound m0 0 = Some ax -> store m0 ax = x ->
  let r := runAll blank sem caddr collideProg (compile collideProg [0]) (VM m0 0) in
  snd r = true /\ regValue (vst (fst r)) (locOf collideProg [0] 2) = Some u.
Proof.
  intros V blank sem caddr m0 x ax u Hu RD Bx Hx.
  assert (C : compile collideProg [0] = [ILoad 0 0; IExec 1 [0] 2 false false]) by (vm_compute; reflexivity).
  assert (L : locOf collideProg [0] 2 = 2) by (vm_compute; reflexivity).
  rewrite C, L. pose proof (rd_regs _ _ _ _ RD) as R. unfold runAll. machine. rewrite Bx.
  unfold execOp, collideProg. machine. rewrite R. machine. rewrite Hx, Hu. machine.
  split; [reflexivity|]. unfold regValue. machine. unfold updN. machine. rewrite Nat.eqb_refl. reflexivity.
Qed.
Print Assumptions C51_collision_refuted.

Example C51_ex :
  let sem op vs := match op, vs with 0, [a] => Some (a * a) | 1, [a] => Some (a + 1) | _, _ => None end in
  regValue (vst (fst (runAll 0 sem exCaddr collideProg (compile collideProg [0]) (VM exM 0))))
           (locOf collideProg [0] 2) = Some 25.
Proof. vm_compute. reflexivity. Qed.

(** ** C52: Set *)
(** [y = x + b; Set(b, y); z = x * x]: the sum is written over the caller's [x]
    (not [b]), [b] keeps its value, and [z] is computed from the wrong [x]. *)
Definition setProg : list tnode :=
  [ arg_ 0; arg_ 1; bin_ 1 [0; 1] 2;
    TNode TLet [1; 2] 0 true false (Some 0) false false false None false 3;
    TNode TOp [0; 0] 2 true false None true true false None false 4 ].

Theorem C52_set_refuted :
  forall V (blank : V) sem caddr m0 x b ax ab y z,
  sem 1 [x; b] = Some y -> sem 2 [y; y] = Some z ->
  ready setProg caddr m0 -> ax <> ab ->
  bound m0 0 = Some ax -> bound m0 1 = Some ab -> store m0 ax = x -> store m0 ab = b ->
  let m := vst (fst (runAll blank sem caddr setProg (compile setProg [0; 1]) (VM m0 0))) in
  nodeValue m 0 = Some y /\ nodeValue m 1 = Some b /\ nodeValue m 4 = Some z.
Proof.
  intros V blank sem caddr m0 x b ax ab y z Hy Hz RD Ne Bx Bb Hx Hb.
  assert (C : compile setProg [0; 1] =
    [ILoad 0 0; ILoad 1 1; IExec 2 [0; 1] 0 false true; ILet; IExec 4 [0; 0] 2 false false]) by (vm_compute; reflexivity).
  assert (Hax : ax < fresh m0).
  { destruct (rd_args _ _ _ _ RD 0) as (a & E & L); [cbn; lia | reflexivity|]. congruence. }
  assert (Hab : ab < fresh m0).
  { destruct (rd_args _ _ _ _ RD 1) as (a & E & L); [cbn; lia | reflexivity|]. congruence. }
  rewrite C. pose proof (rd_regs _ _ _ _ RD) as R. unfold runAll. machine. rewrite Bx. machine. rewrite Bb.
  unfold execOp, setProg. machine. rewrite Hx, Hb, Hy. machine. rewrite R. machine.
  unfold updN. machine. rewrite Nat.eqb_refl. rewrite Hz. machine. unfold nodeValue. machine. unfold updN. machine.
  rewrite Bx, Bb, !Nat.eqb_refl.
  destruct (Nat.eqb_spec ax (fresh m0)); [lia|]. destruct (Nat.eqb_spec ab (fresh m0)); [lia|].
  destruct (Nat.eqb_spec ab ax); [congruence|]. rewrite Hb. auto.
Qed.
Print Assumptions C52_set_refuted.

Example C52_ex :
  let m := vst (fst (runAll 0 (fun op => exSem (3 - op)) exCaddr setProg (compile setProg [0; 1]) (VM exM 0))) in
  (nodeValue m 0, nodeValue m 1, nodeValue m 4) = (Some 12, Some 7, Some 144).
Proof. vm_compute. reflexivity. Qed.
