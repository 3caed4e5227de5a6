(** C113: the life of a CUDA engine. *)
From Coq Require Import List Bool Arith Lia.
From Verif Require Import EngModel EngSpec EngProofs.
Import ListNotations.

(** The states of the executions of a program. *)
Definition reach (p : list call) (s : st) : Prop := exists ls, go ls (start p) = Some s.
(** Nobody can go on. *)
Definition stuck (s : st) : Prop := forall l, fire l s = None.

Lemma reach_inv p s : reach p s -> inv s = true.
Proof. intros (ls & G). exact (inv_go _ _ _ (inv_start p) G). Qed.

(** Whatever is called: there is never more than one goroutine Run, and none is left when
    the engine is not marked as initialised. *)
Theorem C113_one_run p s : reach p s ->
  twice s = false /\ (inited s = false -> run s = RNone \/ run s = REnd).
Proof.
  intros H. apply reach_inv in H. destruct (inv_parts _ H) as (A & B & _). split; [exact A|]. intros E. destruct B as [B|B]; [congruence|].
  destruct (run s); try discriminate B; auto.
Qed.
Print Assumptions C113_one_run.

(** The results of the calls that have returned: Memcpy never has; a failure of Init after
    the making of the context is not reported, unless unloading fails as well; a failure
    of cuBLAS or cuDNN to close is never reported. *)
Theorem C113_results p s : reach p s ->
  exists done rest, p = done ++ rest /\ Forall2 Result done (outs s).
Proof.
  intros (ls & G).
  assert (X : J p [] s). { apply (J_go p [] ls (start p) s); [reflexivity| |exact G]. exists [], []. cbn. auto. }
  destruct X as (d & r & E & F & H). cbn in E. rewrite E. exists d. destruct (cl s); first [destruct H as (c0 & H & _); exists (c0 :: todo s); auto|exists (todo s); auto].
Qed.
Print Assumptions C113_results.

Corollary C113_memcpy_never_returns pre post s : reach (pre ++ CMemcpy :: post) s -> length (outs s) <= length pre.
Proof.
  intros H. destruct (C113_results _ _ H) as (d & rest & E & F).
  assert (L : length d = length (outs s)) by (clear -F; induction F; cbn; congruence).
  destruct (Nat.le_gt_cases (length (outs s)) (length pre)) as [X|X]; [exact X|exfalso].
  assert (N : nth_error d (length pre) = Some CMemcpy).
  { rewrite <- (nth_error_app1 d rest) by lia. rewrite <- E, nth_error_app2, Nat.sub_diag by lia. reflexivity. }
  clear -F N. revert N. generalize (length pre). induction F as [|c r d rs R F IH]; intros [|k] N; try discriminate N.
  - injection N as ->. exact R.
  - exact (IH _ N).
Qed.
Print Assumptions C113_memcpy_never_returns.

(** Init that fails after the making of the context does not return, where it should
    report, for example, that the memory does not suffice; one that cannot make the first
    context returns its error. *)
Theorem C113_init_fails p s : reach p s -> cl s = PIdle -> inited s = false ->
  (forall rest ls s', todo s = CInit (Some (FLater false)) :: rest -> go ls s = Some s' -> outs s' = outs s) /\
  (forall rest, todo s = CInit (Some FCtx) :: rest -> ctx s = false ->
     exists s', go [LCall; LCall; LCall; LCall] s = Some s' /\ cl s' = PIdle /\ todo s' = rest /\ outs s' = outs s ++ [true]).
Proof.
  intros H C I. apply reach_inv in H. destruct (inv_parts _ H) as (_ & B & _ & _ & _ & _ & L & _).
  assert (R : alive (run s) = false) by (destruct B; congruence). rewrite C in L. cbn in L. apply negb_true_iff in L.
  split.
  - intros rest ls s' T G.
    assert (X : forall ls s1 s2, (cl s1 = PIdle /\ todo s1 = todo s \/ cl s1 = PInit1 (Some (FLater false)) \/ cl s1 = PInit2 (Some (FLater false)) \/
              (cl s1 = PClose true false false false false /\ ctx s1 = true) \/ cl s1 = PSendB true false false false) ->
              inited s1 = false -> alive (run s1) = false -> outs s1 = outs s -> go ls s1 = Some s2 -> outs s2 = outs s).
    { clear G ls s'. induction ls as [|l ls IH]; intros s1 s2 K I1 R1 E G; cbn [go] in G; [congruence|].
      destruct (fire l s1) as [s3|] eqn:F; [|discriminate].
      destruct l; cbn in F; unfold caller, runner in F;
        try (destruct (run s1); try discriminate R1; try discriminate F; fail).
      destruct K as [[K1 K2]|[K|[K|[[K KX]|K]]]].
      - rewrite K1, K2, T in F. injection F as <-. apply (IH _ _) in G; auto.
      - rewrite K, I1 in F. destruct (locked s1); [discriminate|]. injection F as <-. apply (IH _ _) in G; auto.
      - rewrite K in F. destruct (locked s1); [discriminate|]. injection F as <-. apply (IH _ _) in G; cbn; auto 10.
      - rewrite K, KX in F. destruct (locked s1); [discriminate|]. injection F as <-. apply (IH _ _) in G; cbn; auto 10.
      - rewrite K in F. discriminate. }
    apply (X ls s s'); auto.
  - intros rest T X. destruct s as [lo ini cx w f e pe ru tw c td ou]. cbn in *. subst lo ini cx c td. cbn. eexists. split; [reflexivity|]. cbn. auto.
Qed.
Print Assumptions C113_init_fails.

(** Close does not return once Run is over: after a batch or a closing has failed, whatever
    is called in between, or on a closed engine. *)
Theorem C113_close_hangs p s : reach p s -> cl s = PIdle ->
  (inited s = true -> run s = RFail \/ run s = RFin \/ run s = REnd ->
   forall pre b n e post ls s', todo s = pre ++ CClose false b n e :: post -> go ls s = Some s' ->
   length (outs s') <= length (outs s) + length pre) /\
  (inited s = false -> ctx s = true ->
   forall b n e post ls s', todo s = CClose false b n e :: post -> go ls s = Some s' -> outs s' = outs s).
Proof.
  intros H C. apply reach_inv in H. destruct (inv_parts _ H) as (_ & B & Ix & _ & _ & _ & L & _). split.
  - intros I R pre b n e post ls s' T G.
    assert (X : K (todo s) (outs s) s').
    { apply (K_go _ _ ls s s'); [|exact G]. split; [exact I|]. split; [exact (Ix I)|]. split; [exact R|]. exists [], []. rewrite C, app_nil_r. auto. }
    destruct X as (_ & _ & _ & d & r & E & F & P). rewrite E, app_length.
    assert (LD : length d = length r) by (clear -F; induction F; cbn; congruence).
    assert (PD : exists rest, todo s = d ++ rest) by (destruct (cl s'); first [destruct P as (_ & c0 & P & _); exists (c0 :: todo s'); exact P|exists (todo s'); exact P]). clear P. destruct PD as (rest & P).
    destruct (Nat.le_gt_cases (length r) (length pre)) as [Y|Y]; [lia|exfalso].
    assert (N : nth_error d (length pre) = Some (CClose false b n e)).
    { rewrite <- (nth_error_app1 d rest) by lia. rewrite <- P, T, nth_error_app2, Nat.sub_diag by lia. reflexivity. }
    clear -F N. revert N. generalize (length pre). induction F as [|c x d rs R F IH]; intros [|k] N; try discriminate N.
    + injection N as ->. exact (R b n e eq_refl).
    + exact (IH _ N).
  - intros I X b n e post ls s' T G. assert (R : alive (run s) = false) by (destruct B; congruence).
    assert (Y : forall ls s1 s2, (cl s1 = PIdle /\ todo s1 = todo s \/ cl s1 = PClose false false b n e \/ cl s1 = PSendB false b n e) ->
              ctx s1 = true -> alive (run s1) = false -> outs s1 = outs s -> go ls s1 = Some s2 -> outs s2 = outs s).
    { clear G ls s'. induction ls as [|l ls IH]; intros s1 s2 K I1 R1 E G; cbn [go] in G; [congruence|].
      destruct (fire l s1) as [s3|] eqn:F; [|discriminate].
      destruct l; cbn in F; unfold caller, runner in F;
        try (destruct (run s1); try discriminate R1; try discriminate F; fail).
      destruct K as [[K1 K2]|[K|K]].
      - rewrite K1, K2, T in F. injection F as <-. apply (IH _ _) in G; auto.
      - rewrite K, I1 in F. destruct (locked s1); [discriminate|]. injection F as <-. apply (IH _ _) in G; cbn; auto 10.
      - rewrite K in F. discriminate. }
    apply (Y ls s s'); auto.
Qed.
Print Assumptions C113_close_hangs.

(** No execution is endless. *)
Theorem C113_ends p : exists n, forall ls s, go ls (start p) = Some s -> length ls <= n.
Proof. exists (wt (start p)). intros ls s G. apply wt_go in G. lia. Qed.
Print Assumptions C113_ends.

(** Programs as intended, where nothing fails: every execution ends with all calls returned
    without an error and with no Run left if the engine is closed, unless Close took the
    Mutex before the goroutine Run had it for its first check. *)
Theorem C113_orderly p s : Orderly false p -> reach p s -> stuck s ->
  (todo s = [] /\ cl s = PIdle /\ outs s = repeat false (length p)) \/
  (cl s = PSendB false false false false /\ locked s = true /\ run s = RStart).
Proof.
  intros Or H N. pose proof (reach_inv _ _ H) as HI. destruct H as (ls & G).
  assert (HO : O s). { apply (O_go ls (start p) s (inv_start p)); [|exact G]. unfold O, start. cbn. split; [discriminate|]. split; [reflexivity|]. split; [constructor|]. split; [constructor|]. split; [exact Or|discriminate]. }
  destruct (O_stuck s HI HO N) as [[C T]|[C R]].
  - left. split; [exact T|]. split; [exact C|].
    assert (X : J p [] s). { apply (J_go p [] ls (start p) s); [reflexivity| |exact G]. exists [], []. cbn. auto. }
    destruct X as (d & r & E & F & P). rewrite C, T, app_nil_r in P. subst d. cbn in E. subst r.
    destruct HO as (_ & _ & _ & U & _). assert (L : length p = length (outs s)) by (clear -F; induction F; cbn; congruence). rewrite L. clear -U.
    induction U as [|x l Hx U IH]; cbn; congruence.
  - right. split; [exact C|]. split; [|exact R]. destruct (inv_parts _ HI) as (_ & _ & _ & _ & _ & _ & L & _). rewrite C in L. exact L.
Qed.
Print Assumptions C113_orderly.

(** Refuted: Init and Close of an engine where nothing fails always return. *)
Theorem C113_orderly_refuted :
  Orderly false [CInit None; CClose false false false false] /\
  exists s, reach [CInit None; CClose false false false false] s /\ stuck s /\ outs s = [false].
Proof.
  split; [exact I|]. eexists. split; [exists [LCall; LCall; LCall; LCall; LCall]; vm_compute; reflexivity|]. split; [|reflexivity].
  intros l. destruct l; reflexivity.
Qed.
Print Assumptions C113_orderly_refuted.

(** Refuted: Close reports that cuBLAS could not be closed. It returns nil, leaves the
    engine marked as initialised, a following Init returns nil and a following Close hangs. *)
Theorem C113_close_error_refuted :
  let p := [CInit None; CClose false true false false; CInit None; CClose false false false false] in
  exists s, reach p s /\ stuck s /\ outs s = [false; false; false] /\ run s = REnd /\ inited s = true.
Proof.
  intros p. eexists. split; [exists [LCall; LCall; LCall; LRun; LRun; LCall; LCall; LWork; LRun; LAns; LRun; LRun; LCall; LCall; LCall; LCall]; vm_compute; reflexivity|].
  split; [|auto]. intros l. destruct l; reflexivity.
Qed.
Print Assumptions C113_close_error_refuted.

(** Two lives of an engine with work in the first, to the end. *)
Example C113_ex :
  let p := [CInit None; CBatch false; CBatch false; CClose false false false false; CInit None; CClose false false false false] in
  Orderly false p /\
  exists s, reach p s /\ stuck s /\ outs s = [false; false; false; false; false; false] /\ run s = REnd /\ inited s = false.
Proof.
  intros p. split; [exact I|]. eexists. split.
  - exists [LCall; LCall; LCall; LRun; LRun; LCall; LCall; LBatch; LCall; LCall; LWork; LRun; LAns; LBatch; LWork; LRun; LAns; LCall; LFin; LRun; LCall;
            LCall; LCall; LCall; LRun; LRun; LCall; LCall; LWork; LRun; LAns; LWork; LRun; LAns; LCall; LFin; LRun; LCall].
    vm_compute. reflexivity.
  - split; [intros l; destruct l; reflexivity|auto].
Qed.
(** A failed batch; a failed Init of a fresh engine. *)
Example C113_ex_fail :
  (exists s, reach [CInit None; CBatch true; CClose false false false false] s /\ stuck s /\ eerr s = true /\ outs s = [false; false]) /\
  (exists s, reach [CInit (Some (FLater false)); CInit None] s /\ stuck s /\ outs s = []) /\
  (exists s, reach [CInit (Some FCtx); CInit None] s /\ outs s = [true; false]).
Proof.
  split; [|split].
  - eexists. split; [exists [LCall; LCall; LCall; LRun; LRun; LCall; LBatch; LRun; LRun; LCall; LCall]; vm_compute; reflexivity|]. split; [intros l; destruct l; reflexivity|auto].
  - eexists. split; [exists [LCall; LCall; LCall; LCall]; vm_compute; reflexivity|]. split; [intros l; destruct l; reflexivity|auto].
  - eexists. split; [exists [LCall; LCall; LCall; LCall; LCall; LCall; LCall]; vm_compute; reflexivity|]. auto.
Qed.
