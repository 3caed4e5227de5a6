(** C111: the handshake between RunAll, runall and the collector of the batched BLAS. *)
From Coq Require Import List Arith Lia Permutation Bool.
From Verif Require Import HandModel HandSpec HandProofs.
Import ListNotations.

(** RunAll of a tape machine returns only when runall has ended and every BLAS call that
    the executed instructions made has been run, once. It returns the error of the first
    instruction that failed, or else that of the first closure that failed. *)
Theorem C111_returns {J E} (cap : nat) (closures : list (option E)) (is : list (instr J E)) c k i ls s r :
  go true cap closures ls (start (runall is) c k i) = Some s -> mn s = MRet r ->
  exists acts r0, Outcome is acts r0 /\ Permutation (ran s) (jobs acts) /\
    match r0 with Some e => r = Some e | None => FirstError closures r end /\
    work s = [] /\ todo s = [] /\ rn s = RNext.
Proof.
  intros G M. destruct (reach_inv _ _ _ _ _ _ _ _ _ (runall_proper is) G) as (P & [_ S2] & Q).
  unfold PInv in P. specialize (S2 eq_refl). rewrite M in P, S2. destruct P as (R & T & P).
  unfold JInv, mh, rh in Q. rewrite M, R, S2 in Q. cbn [mhand] in Q. rewrite !app_nil_r in Q. apply Permutation_sym in Q.
  destruct P as [(e & -> & P)|(P & F)].
  - destruct (runall_ends is _ _ _ P (fun H => H)) as (_ & [e'|] & O & X); [|discriminate X].
    injection X as <-. exists (did s), (Some e). repeat split; auto.
  - destruct (runall_ends is _ _ _ P (fun H => H)) as (_ & [e'|] & O & X); [discriminate X|].
    exists (did s), None. split; [exact O|]. split; [exact Q|]. split; [exact F|]. auto.
Qed.
Print Assumptions C111_returns.

Lemma runall_acts {J E} (is : list (instr J E)) : Forall (fun p => ~ In Flush (fst p)) is -> ~ In (SAct Flush) (runall is).
Proof.
  induction is as [|[xs [e|]] is IH]; intros F; cbn.
  - intros [H|[]]. discriminate H.
  - apply Forall_inv in F. cbn in F. rewrite in_app_iff, in_map_iff. intros [(y & H & Hy)|[H|[]]]; [|discriminate H].
    injection H as ->. exact (F Hy).
  - pose proof (Forall_inv F) as F1. cbn in F1. apply Forall_inv_tail in F. rewrite in_app_iff, in_map_iff.
    intros [(y & H & Hy)|H]; [|exact (IH F H)]. injection H as ->. exact (F1 Hy).
Qed.

(** Without flushes the calls are run in the order in which they were made. *)
Theorem C111_order {J E} (cap : nat) (closures : list (option E)) (is : list (instr J E)) c k i ls s r :
  Forall (fun p => ~ In Flush (fst p)) is ->
  go true cap closures ls (start (runall is) c k i) = Some s -> mn s = MRet r ->
  exists acts r0, Outcome is acts r0 /\ ran s = jobs acts.
Proof.
  intros NF G M. destruct (reach_inv _ _ _ _ _ _ _ _ _ (runall_proper is) G) as (P & [_ S2] & _).
  pose proof (reach_order _ _ _ _ _ _ _ _ _ (runall_proper is) (runall_acts is NF) G) as Q.
  unfold PInv in P. specialize (S2 eq_refl). rewrite M in P, S2. destruct P as (R & T & P).
  unfold OInv, mh in Q. rewrite M, S2 in Q. cbn [mhand] in Q. rewrite !app_nil_r in Q.
  destruct P as [(e & -> & P)|(P & F)];
    destruct (runall_ends is _ _ _ P (fun H => H)) as (_ & r0 & O & _); exists (did s), r0; auto.
Qed.
Print Assumptions C111_order.

(** Only the acknowledgement adds a Signal to what runall is done with, and only the end of
    its DoWork a flush. *)
Lemma did_label {J E} cap closures l (s s' : st J E) a :
  fire true cap closures l s = Some s' -> did s' = did s ++ [a] ->
  match a with Sig => l = Ack | Flush => l = REnd | _ => True end.
Proof.
  intros F D. destruct a; try exact I; destruct s as [m r t cc kk ii w x d]; cbn [did] in D;
  assert (Nd : forall z : act J, d <> d ++ [z])
    by (intros z e; apply (f_equal (@List.length _)) in e; rewrite app_length in e; cbn in e; lia);
  destruct l; try reflexivity; exfalso; cbn [fire] in F;
  repeat match type of F with context [match ?z with _ => _ end] => destruct z; try discriminate F end;
  injection F as <-; cbn [did] in D;
  first [exact (Nd _ D) | apply app_inv_head in D; discriminate D].
Qed.

(** When Signal returns, every call made before has been run. *)
Theorem C111_signal {J E} (cap : nat) (closures : list (option E)) (is : list (instr J E)) c k i ls s l s' :
  go true cap closures ls (start (runall is) c k i) = Some s -> fire true cap closures l s = Some s' ->
  did s' = did s ++ [Sig] -> Permutation (ran s') (jobs (did s')).
Proof.
  intros G F0 D. assert (G' : go true cap closures (ls ++ [l]) (start (runall is) c k i) = Some s').
  { rewrite go_app, G. cbn [go]. rewrite F0. reflexivity. }
  assert (F : l = Ack) by (apply (did_label cap closures l s s' Sig F0 D)). subst l. rename F0 into F.
  destruct (reach_inv _ _ _ _ _ _ _ _ _ (runall_proper is) G) as (_ & [_ S2] & _). specialize (S2 eq_refl).
  destruct (reach_inv _ _ _ _ _ _ _ _ _ (runall_proper is) G') as (_ & _ & Q). unfold JInv, mh, rh in Q.
  destruct s as [m r t cc kk ii w x d]. cbn [fire] in F. destruct m; try discriminate F. destruct r; try discriminate F.
  cbn [mn work] in S2. subst w. injection F as <-. cbn [mn rn did ran work mhand] in *. rewrite !app_nil_r in Q.
  apply Permutation_sym. exact Q.
Qed.
Print Assumptions C111_signal.

(** When a flush ends, every call made before has been run, provided that RunAll is waiting
    at its select and not working itself. *)
Theorem C111_flush {J E} (cap : nat) (closures : list (option E)) (is : list (instr J E)) c k i ls s l s' :
  go true cap closures ls (start (runall is) c k i) = Some s -> fire true cap closures l s = Some s' ->
  did s' = did s ++ [Flush] -> mn s' = MSel -> Permutation (ran s') (jobs (did s')).
Proof.
  intros G F0 D M. assert (G' : go true cap closures (ls ++ [l]) (start (runall is) c k i) = Some s').
  { rewrite go_app, G. cbn [go]. rewrite F0. reflexivity. }
  assert (F : l = REnd) by (apply (did_label cap closures l s s' Flush F0 D)). subst l. rename F0 into F. revert M.
  destruct (reach_inv _ _ _ _ _ _ _ _ _ (runall_proper is) G') as (_ & _ & Q). unfold JInv, mh, rh in Q.
  destruct s as [m r t cc kk ii w x d]. cbn [fire] in F. destruct r as [| |[|j h]|]; try discriminate F.
  destruct w; [|discriminate F]. injection F as <-. cbn [mn rn did ran work] in *.
  intros ->. cbn [mhand] in Q. rewrite !app_nil_r in Q. apply Permutation_sym. exact Q.
Qed.
Print Assumptions C111_flush.

(** In general it is not so: a flush can be over while a call made before it has not been
    run, because RunAll has taken it out of the channel on the collector's signal. *)
Theorem C111_flush_refuted :
  ~ (forall (is : list (instr nat nat)) ls s s',
       go true 3 [] ls (start (runall is) false false 0) = Some s -> fire true 3 [] REnd s = Some s' ->
       forall j, In j (jobs (did s')) -> In j (ran s')).
Proof.
  intros H. specialize (H [([Enq 7], None); ([Flush], None); ([Local], None)] [Run; Run; Col; GiveF; MTake; Run]
    (St (MWork false [7]) (RFlush []) [SAct Local; SDone] false false 0 [] [] [Enq 7])
    (St (MWork false [7]) RNext [SAct Local; SDone] false false 0 [] [] [Enq 7; Flush]) eq_refl eq_refl 7 (or_introl eq_refl)).
  exact H.
Qed.
Print Assumptions C111_flush_refuted.

(** A flush can also make a later call run before an earlier one. *)
Theorem C111_order_refuted :
  ~ (forall (is : list (instr nat nat)) ls s r,
       go true 3 [] ls (start (runall is) false false 0) = Some s -> mn s = MRet r ->
       exists acts r0, Outcome is acts r0 /\ ran s = jobs acts).
Proof.
  intros H. specialize (H [([Enq 7], None); ([Enq 8], None); ([Flush], None)]
    [Run; Run; Col; GiveF; MTake; Run; Run; Run; RTake; RProc; REnd; MProc; MEnd; SendDone; MEnd; Clos; MEnd]
    (St (MRet None) RNext [] false true 0 [] [8; 7] [Enq 7; Enq 8; Flush]) None eq_refl eq_refl).
  destruct H as (acts & r0 & O & R). cbn [ran] in R.
  inversion O as [is' F E1|a xs e b F E1]; subst.
  - cbn in R. discriminate R.
  - destruct a as [|[y [?|]] [|[z [?|]] [|[u [?|]] [|? a]]]]; cbn in E1; discriminate E1.
Qed.
Print Assumptions C111_order_refuted.

(** RunAll always returns, whatever the schedule, if no other machine's collector waits for
    the same BLAS: no execution goes on for ever, and one that cannot go on has returned. *)
Theorem C111_always_returns {J E} (cap : nat) (closures : list (option E)) (is : list (instr J E)) c k :
  0 < cap ->
  exists N, forall ls s, go true cap closures ls (start (runall is) c k 0) = Some s ->
    length ls <= N /\ ((forall l, fire true cap closures l s = None) -> exists r, mn s = MRet r).
Proof.
  intros C0. exists (wt closures (start (runall is) c k 0)). intros ls s G.
  split; [exact (go_bound true cap closures _ _ _ G)|]. intros D.
  destruct (reach_K true cap closures _ _ _ _ _ eq_refl (runall_proper is) G) as (P & S & K).
  assert (X : (exists r, mn s = MRet r) \/ (forall r, mn s <> MRet r)).
  { destruct (mn s); try (right; intros; discriminate). left. eexists. reflexivity. }
  destruct X as [X|X]; [exact X|]. exfalso.
  destruct (progress true cap closures _ _ eq_refl C0 (runall_last is) P S K X) as (l & s' & F).
  rewrite D in F. discriminate F.
Qed.
Print Assumptions C111_always_returns.

(** The collector of one other machine is enough for RunAll to wait for ever: it takes the
    signal, and the fourth call finds the channel full. *)
Theorem C111_always_returns_refuted :
  ~ (forall (is : list (instr nat nat)) i ls s,
       go true 3 [] ls (start (runall is) false false i) = Some s ->
       (forall l, fire true 3 [] l s = None) -> exists r, mn s = MRet r).
Proof.
  intros H. destruct (H [([Enq 1; Enq 2; Enq 3; Enq 4], None)] 1 [Run; Run; Run; Run; Run; Run; Steal]
    (St MSel RNext [SAct (Enq 4); SDone] false false 0 [1; 2; 3] [] [Enq 1; Enq 2; Enq 3]) eq_refl) as [r R].
  - intros []; reflexivity.
  - discriminate R.
Qed.
Print Assumptions C111_always_returns_refuted.

(** A lisp machine does not know of the batched BLAS: no call is ever run, and when there
    are more of them than the channel holds RunAll never returns. *)
Theorem C111_lisp {J E} (cap : nat) (closures : list (option E)) f b (fwd bwd : list (list (act J))) c k i ls s :
  go false cap closures ls (start (lispRunall f b fwd bwd) c k i) = Some s ->
  ran s = [] /\
  (forall r, mn s = MRet r -> length (jobs ((if f then concat fwd else []) ++ (if b then concat bwd else []))) <= cap).
Proof.
  intros G. destruct (reach_inv _ _ _ _ _ _ _ _ _ (lisp_proper f b fwd bwd) G) as (P & _ & _).
  destruct (reach_U _ _ _ _ _ _ _ _ _ eq_refl G) as (R & _ & _ & W & L). split; [exact R|].
  intros r M. unfold PInv in P. rewrite M in P. destruct P as (_ & _ & P).
  assert (X : did s = (if f then concat fwd ++ [Sig] else []) ++ (if b then concat bwd else [])).
  { unfold lispRunall in P. destruct P as [(e & _ & P)|(P & _)];
      (apply act_snoc in P; [|exact (fun H => H)|exact (fun H => H)]); destruct P as (-> & _); reflexivity. }
  rewrite W, X in L. rewrite jobs_app in *. destruct f; rewrite ?jobs_app in L; cbn [jobs] in L; rewrite ?app_nil_r in L; exact L.
Qed.
Print Assumptions C111_lisp.

(** A run with two calls, a flush, a signal and a closure, from the start to nil; one with a
    failing instruction; a lisp run with two calls that returns nil and one with four. *)
Example C111_ex :
  let is := [([Enq 1], None); ([Local; Enq 2], None); ([Sig], None); ([Enq 3; Flush], None)] : list (instr nat nat) in
  (exists s, go true 3 [None] [Run; Run; Col; GiveF; MTake; Run; Run; MProc; Run; MTake; MProc; MEnd;
      GiveT; MEnd; Ack; Run; Run; Run; Col; RTake; RProc; REnd; GiveF; MEnd; SendDone; MEnd; Clos; Clos; MEnd]
      (start (runall is) false false 0) = Some s /\ mn s = MRet None /\ ran s = [1; 2; 3]) /\
  (exists s, go true 3 [] [Run; Run; SendErr; MTake; MProc; MEnd]
      (start (runall [([Enq 1], Some 5); ([Enq 2], None)]) false false 0) = Some s /\ mn s = MRet (Some 5) /\ ran s = [1]) /\
  (exists s, go (E := nat) false 3 [] [Run; Run; Run; Run; Run; SendDone; MEnd; Clos; MEnd]
      (start (lispRunall true true [[Enq 1]] [[Enq 2]]) false false 0) = Some s /\ mn s = MRet None /\ ran s = [] /\ work s = [1; 2]) /\
  (exists s, go (E := nat) false 3 [] [Run; Run; Run; Run; Run; Run]
      (start (lispRunall true true [[Enq 1]; [Enq 2]; [Enq 3]; [Enq 4]] []) false false 0) = Some s /\
      forall l, fire false 3 [] l s = None).
Proof.
  split; [|split; [|split]]; eexists.
  - split; [vm_compute; reflexivity|split; reflexivity].
  - split; [vm_compute; reflexivity|split; reflexivity].
  - split; [vm_compute; reflexivity|split; [reflexivity|split; reflexivity]].
  - split; [vm_compute; reflexivity|]. intros []; reflexivity.
Qed.
