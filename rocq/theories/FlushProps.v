(** C110: flush instructions and the batched BLAS. *)
From Coq Require Import List Arith ZArith Lia Bool Sorted.
From Verif Require Import TapeModel TapeSpec TapeIntervals TapeProofs TapeHistory TapeProps
  FlushModel FlushSpec FlushProofs FlushSim.
Import ListNotations.
Local Open Scope nat_scope.

(** Flushes apart, the program is the one of C09. *)
Theorem C110_same_program : forall ns leaves, withoutFlushes (compileF ns leaves) = compile ns leaves.
Proof.
  intros ns leaves. unfold compileF, compile, codes. apply (genFromF_without _ _ _ _ (CG (fun _ => None) [] [] [])).
Qed.
Print Assumptions C110_same_program.

(** The result of a queued call is flushed before anything else looks at it. *)
Theorem C110_reads_settled : forall ns leaves,
  sortedGraph ns -> noLet ns -> noCollision ns -> (forall p, In p leaves -> p < length ns) ->
  readsSettled ns (compileF ns leaves).
Proof.
  intros ns leaves SG NL NC LV. apply reads_ok_settled. apply compile_reads_ok; auto.
Qed.
Print Assumptions C110_reads_settled.

(** A program whose queued calls keep their operands computes what the direct
    evaluation says, wherever else the queue may be worked off. *)
Theorem C110_batched : forall V (blank : V) sem caddr ns leaves m0 P,
  sortedGraph ns -> noLet ns -> noAlias ns -> noCollision ns ->
  (forall p, In p leaves -> p < length ns) -> ready ns caddr m0 ->
  (forall i, hasValue ns i -> exists v, evals ns sem (given ns caddr m0) i v) ->
  operandsKept ns (compileF ns leaves) -> moreFlushes (compileF ns leaves) P ->
  exists m, runBatched blank sem caddr ns P m0 = Some m /\
    (forall i, hasValue ns i -> kept ns i \/ (forall k, ~ usedBy ns i k) ->
       exists v, evals ns sem (given ns caddr m0) i v /\
                 regValue m (locOf ns leaves i) = Some v /\ nodeValue m i = Some v) /\
    (forall i c, i < length ns -> tk (nodeAt ns i) = TRead -> tkids (nodeAt ns i) = [c] ->
       exists v, evals ns sem (given ns caddr m0) c v /\ cells m i = Some v).
Proof.
  intros V blank sem caddr ns leaves m0 P SG NL NA NC LV RD Hv OK MF.
  destruct (C09_at_the_end V blank sem caddr ns leaves m0 SG NL NA NC LV RD Hv) as (mh & Rh & Vals & Cells).
  assert (RO : reads_ok ns [] P).
  { apply (reads_ok_mono ns _ _ MF [] []); [apply incl_refl|]. apply compile_reads_ok; auto. }
  assert (WO : writes_ok ns [] P).
  { apply (writes_ok_mono ns _ _ MF [] []); [apply incl_refl|].
    apply (kept_writes_ok ns _ [] []); [intros x y []|exact OK]. }
  assert (E : withoutFlushes P = List.concat (map (codeOf ns) (seq 0 (length ns)))).
  { rewrite (without_more _ _ MF), C110_same_program. unfold compile.
    rewrite (codes_eq ns SG NL NC leaves LV). reflexivity. }
  destruct (all_sim V blank sem caddr ns SG NL NA m0 RD (length ns) 0 m0 m0 [] [] P eq_refl
              (inv0 V sem caddr ns m0 RD) Hv) as (mh' & m' & q' & Sp & Rn & Se).
  { unfold Settled. repeat (split; [reflexivity|]). exists (store m0). split; reflexivity. }
  { intros b []. }
  { exact E. }
  { exact RO. }
  { exact WO. }
  assert (mh' = mh).
  { unfold steps in Sp. unfold runAll in Rh. cbn [vst vpc skipn] in Rh.
    unfold compile in Rh. rewrite (codes_eq ns SG NL NC leaves LV) in Rh. rewrite Sp in Rh.
    inversion Rh. reflexivity. }
  subst mh'.
  destruct (settled_flush V sem ns mh m' q' Se) as (m2 & D & S2 & _).
  exists m2. split; [unfold runBatched; rewrite Rn, D; reflexivity|].
  destruct S2 as (A & _ & B & C & t & W & Et). cbn [workAll] in W. inversion W; subst t. split.
  - intros i HV K. destruct (Vals i HV K) as (v & Ev & H1 & H2). exists v. split; [exact Ev|].
    unfold regValue, nodeValue in *. rewrite A, B.
    destruct (regs mh (locOf ns leaves i)); [|discriminate]. destruct (bound mh i); [|discriminate].
    rewrite !Et. auto.
  - intros i c Hi K Kc. destruct (Cells i c Hi K Kc) as (v & Ev & H1). exists v. rewrite C. auto.
Qed.
Print Assumptions C110_batched.

(** ** When the operands are kept *)
Definition execIds (l : list instr) : list nat :=
  flat_map (fun x => match x with IExec i _ _ _ _ => [i] | _ => [] end) l.

Lemma execIds_codeOf : forall ns i, execIds (codeOf ns i) = [i] \/ execIds (codeOf ns i) = [].
Proof. intros ns i. unfold codeOf. destruct (tk (nodeAt ns i)); try destruct (preAt ns i); cbn; auto. Qed.

Lemma execIds_sorted : forall ns len s,
  StronglySorted lt (execIds (List.concat (map (codeOf ns) (seq s len)))) /\
  Forall (fun i => s <= i) (execIds (List.concat (map (codeOf ns) (seq s len)))).
Proof.
  intros ns. induction len as [|len IH]; intros s; cbn [seq map List.concat].
  - split; constructor.
  - destruct (IH (S s)) as [A B]. unfold execIds in *. rewrite flat_map_app.
    assert (B' : Forall (fun i => s <= i)
      (flat_map (fun x => match x with IExec i _ _ _ _ => [i] | _ => [] end)
         (List.concat (map (codeOf ns) (seq (S s) len))))).
    { eapply Forall_impl; [|exact B]. intros i Hi. cbv beta in Hi. lia. }
    destruct (execIds_codeOf ns s) as [E|E]; unfold execIds in E; rewrite E; cbn [app].
    + split; [constructor; [exact A|]|constructor; [lia|exact B']].
      eapply Forall_impl; [|exact B]. intros i Hi. cbv beta in Hi. lia.
    + auto.
Qed.

Lemma sorted_before : forall a b c (x y : nat), StronglySorted lt (a ++ x :: b ++ y :: c) -> x < y.
Proof.
  induction a as [|z a IH]; intros b c x y H; cbn [app] in H; inversion H; subst.
  - rewrite Forall_forall in H3. apply H3. apply in_app_iff. right. left. reflexivity.
  - apply (IH b c). exact H2.
Qed.

Lemma exec_in : forall ns is j rs w p u, In (IExec j rs w p u) (List.concat (map (codeOf ns) is)) ->
  In j is /\ rs = map (loc ns) (tkids (nodeAt ns j)) /\ w = loc ns j /\
  tk (nodeAt ns j) <> TArg /\ tk (nodeAt ns j) <> TLet /\ tk (nodeAt ns j) <> TRead /\ tk (nodeAt ns j) <> TAt.
Proof.
  intros ns is j rs w p u H. apply in_concat in H. destruct H as (l & Hl & H).
  apply in_map_iff in Hl. destruct Hl as (i & <- & Hi). unfold codeOf in H.
  destruct (tk (nodeAt ns i)) eqn:K; cbn [In] in H;
    try (destruct H as [H|[]]; discriminate); try destruct H;
    (apply in_app_iff in H; destruct H as [H|[H|[]]];
      [destruct (preAt ns i); [destruct H as [H|[]]; discriminate|destruct H]|]; inversion H; subst;
     rewrite K; repeat (split; [first [exact Hi|reflexivity|discriminate]|]); discriminate).
Qed.

(** If the operands of the BLAS calls are values that no operator may overwrite
    (inputs, constants, random sources, gradients of inputs), they are kept. *)
Theorem C110_operands_kept : forall ns leaves,
  sortedGraph ns -> noLet ns -> noCollision ns -> (forall p, In p leaves -> p < length ns) ->
  (forall k c, k < length ns -> textern (nodeAt ns k) = true -> In c (tkids (nodeAt ns k)) -> kept ns c) ->
  operandsKept ns (compileF ns leaves).
Proof.
  intros ns leaves SG NL NC LV H a b c k rs r pre un j rs' w' pre' un' E X1 X2 Hin. exfalso.
  assert (E' : List.concat (map (codeOf ns) (seq 0 (length ns))) =
     withoutFlushes a ++ IExec k rs r pre un :: withoutFlushes b ++ IExec j rs' w' pre' un' :: withoutFlushes c).
  { rewrite <- (codes_eq ns SG NL NC leaves LV). fold (compile ns leaves).
    rewrite <- C110_same_program, E, without_app. cbn [withoutFlushes]. rewrite without_app. reflexivity. }
  destruct (execIds_sorted ns (length ns) 0) as [So _]. rewrite E' in So.
  unfold execIds in So. rewrite flat_map_app in So. cbn [flat_map app] in So.
  rewrite flat_map_app in So. cbn [flat_map app] in So. apply sorted_before in So.
  destruct (exec_in ns (seq 0 (length ns)) k rs r pre un) as (Ik & -> & _ & K1 & K2 & K3 & K4).
  { rewrite E'. apply in_app_iff. right. left. reflexivity. }
  destruct (exec_in ns (seq 0 (length ns)) j rs' w' pre' un') as (Ij & _ & -> & J1 & J2 & J3 & J4).
  { rewrite E'. apply in_app_iff. right. right. apply in_app_iff. right. left. reflexivity. }
  apply in_seq in Ik. apply in_seq in Ij. apply in_map_iff in Hin. destruct Hin as (d & Ed & Hd).
  destruct (sg_kids ns SG k d) as [Hdk HVd]; [lia|exact Hd|].
  assert (HVj : hasValue ns j) by (split; [lia|auto]).
  destruct (loc_shared_spec ns SG NL j d HVj HVd) as (NK & _); [lia|exact Ed|].
  apply NK. apply (H k d); auto. lia.
Qed.
Print Assumptions C110_operands_kept.

(** The example of C09 ([a = x @ w + c], Read, [b = a * x]): the product is queued, a
    flush comes before the addition and before the reading. *)
Example C110_ex :
  compileF exT [0; 1; 2] =
    [FI (ILoad 0 0); FI (ILoad 1 1); FI (IExec 2 [] 2 false false);
     FI (IAlloc 3 3); FI (IExec 3 [0; 1] 3 true false);
     FFlush; FI (IExec 4 [3; 2] 3 false true);
     FFlush; FI (IRead 5 3);
     FI (IExec 6 [3; 0] 3 false true)] /\
  (forall k c, k < length exT -> textern (nodeAt exT k) = true -> In c (tkids (nodeAt exT k)) -> kept exT c) /\
  match runBatched 0 exSem exCaddr exT (compileF exT [0; 1; 2]) exM with
  | Some m => regValue m (locOf exT [0; 1; 2] 6) = Some 190 /\ cells m 5 = Some 38
  | None => False
  end.
Proof.
  split; [vm_compute; reflexivity|]. split; [|vm_compute; auto].
  intros k c Hk E Hc. do 3 (destruct k as [|k]; [discriminate|]).
  destruct k as [|k]; [cbn in Hc; destruct Hc as [<-|[<-|[]]]; left; reflexivity|].
  do 3 (destruct k as [|k]; [discriminate|]). cbn in Hk. lia.
Qed.

(** ** Operands that are not kept.  [e = f(x)], [a = e @ x], [d = -e], [r = a + d]:
    the register and the memory of [e] are given to [d], which is computed at once,
    while the product is still in the queue and waits for [r] to ask for it. *)
Definition exW : list tnode :=
  [ arg_ 0;
    TNode TOp [0] 1 true false (Some 0) true true true None false 1;
    TNode TOp [1; 0] 2 true true None true true false None false 2;
    TNode TOp [1] 3 true false (Some 0) true true true None false 3;
    TNode TOp [2; 3] 4 true false (Some 0) true true true None false 4 ].
Definition exWSem (op : nat) (vs : list Z) : option Z :=
  match op, vs with
  | 1, [a] => Some (a * a)%Z
  | 2, [a; b] => Some (a * b)%Z
  | 3, [a] => Some (- a)%Z
  | 4, [a; b] => Some (a + b)%Z
  | _, _ => None
  end.
Definition exWM : mstate Z :=
  MState (fun _ => None) (fun a => match a with 0 => 3%Z | _ => 0%Z end) 1
         (fun i => match i with 0 => Some 0 | _ => None end) (fun _ => None).

Lemma exW_sorted : sortedGraph exW.
Proof.
  constructor; intros i; do 5 (destruct i as [|i]; [cbn; intros; unfold hasValue; cbn;
    repeat match goal with
           | H : _ \/ _ |- _ => destruct H
           | H : False |- _ => destruct H
           | H : Some _ = Some _ |- _ => injection H as H
           end; subst; try discriminate;
    repeat split; cbn; try lia; try discriminate; try reflexivity |]); cbn; intros; lia.
Qed.
Lemma exW_noCollision : noCollision exW.
Proof.
  assert (H : forall k, k < 5 -> thash (nodeAt exW k) = k).
  { intros k Hk. do 5 (destruct k as [|k]; [reflexivity|]). lia. }
  intros i j Hi Hj E. cbn in Hi, Hj. rewrite !H in E by lia. exact E.
Qed.

(** Everything C110_batched asks for holds except that operands are kept: the
    direct value of [r] is 18, the machine without a queue says so, and the one
    with the queue answers -36. *)
Theorem C110_operands_refuted :
  sortedGraph exW /\ noLet exW /\ noAlias exW /\ noCollision exW /\ ready exW exCaddr exWM /\
  evals exW exWSem (given exW exCaddr exWM) 4 18%Z /\
  ~ operandsKept exW (compileF exW [0]) /\
  regValue (vst (fst (runAll 0%Z exWSem exCaddr exW (compile exW [0]) (VM exWM 0)))) (locOf exW [0] 4) = Some 18%Z /\
  exists m, runBatched 0%Z exWSem exCaddr exW (compileF exW [0]) exWM = Some m /\
    regValue m (locOf exW [0] 4) = Some (-36)%Z /\ nodeValue m 4 = Some (-36)%Z.
Proof.
  split; [exact exW_sorted|].
  split; [intros i Hi; do 5 (destruct i as [|i]; [cbn; discriminate|]); cbn in Hi; lia|].
  split; [intros i Hi; do 5 (destruct i as [|i]; [reflexivity|]); cbn in Hi; lia|].
  split; [exact exW_noCollision|].
  split.
  { constructor.
    - reflexivity.
    - intros i Hi K. destruct i as [|i]; [exists 0; split; [reflexivity|cbn; lia]|].
      do 4 (destruct i as [|i]; [cbn in K; discriminate|]). cbn in Hi. lia.
    - intros i Hi K. do 5 (destruct i as [|i]; [cbn in K; discriminate|]). cbn in Hi. lia. }
  split.
  { assert (E0 : evals exW exWSem (given exW exCaddr exWM) 0 3%Z).
    { change 3%Z with (given exW exCaddr exWM 0). apply ev_arg; [cbn; lia|reflexivity]. }
    assert (E1 : evals exW exWSem (given exW exCaddr exWM) 1 9%Z).
    { apply (ev_op _ _ _ _ 1 [3%Z]); [cbn; lia|left; reflexivity|repeat constructor; assumption|reflexivity]. }
    assert (E2 : evals exW exWSem (given exW exCaddr exWM) 2 27%Z).
    { apply (ev_op _ _ _ _ 2 [9%Z; 3%Z]); [cbn; lia|left; reflexivity|repeat constructor; assumption|reflexivity]. }
    assert (E3 : evals exW exWSem (given exW exCaddr exWM) 3 (-9)%Z).
    { apply (ev_op _ _ _ _ 3 [9%Z]); [cbn; lia|left; reflexivity|repeat constructor; assumption|reflexivity]. }
    apply (ev_op _ _ _ _ 4 [27%Z; (-9)%Z]); [cbn; lia|left; reflexivity|repeat constructor; assumption|reflexivity]. }
  split.
  { intros H.
    assert (C : compileF exW [0] =
      [FI (ILoad 0 0); FI (IExec 1 [0] 1 false false); FI (IAlloc 2 2)] ++
      FI (IExec 2 [1; 0] 2 true false) :: [] ++
      FI (IExec 3 [1] 1 false true) :: [FFlush; FI (IExec 4 [2; 1] 2 false true)]) by (vm_compute; reflexivity).
    assert (Q := H _ _ _ _ _ _ _ _ _ _ _ _ _ C eq_refl eq_refl (or_introl eq_refl)). destruct Q. }
  split; [vm_compute; reflexivity|].
  eexists. split; [vm_compute; reflexivity|]. split; reflexivity.
Qed.
Print Assumptions C110_operands_refuted.
