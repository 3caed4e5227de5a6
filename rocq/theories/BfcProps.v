(** C30: the GPU memory pool. *)
From Coq Require Import Arith ZArith List Bool Lia Permutation.
From Verif Require Import BfcModel BfcSpec BfcProofs.
Import ListNotations.
Open Scope Z_scope.

Lemma reserve_ok bs st tot s : 0 < bs -> 0 < tot -> reserve (makeBFC bs) st tot = Some s ->
  Inv s /\ start s = st /\ blockSize s = bs /\ reserved s = tot /\ used s = [] /\ allocated s = 0.
Proof.
  intros Hb Ht R. unfold reserve in R. cbn [makeBFC mem fresh first last len blockSize used allocated allocs frees newMemblock] in R.
  cbn [insert first] in R. injection R as <-. cbn [withLen withLast withFirst start blockSize reserved used allocated]. repeat split; try reflexivity.
  exists [(0%nat, (0, tot))], None. split.
  - split; cbn [ptrs map fst opt app withLen withLast withFirst mem fresh first last].
    + intros p m. destruct (Nat.eqb_spec p 0) as [->|]; [|discriminate]. intro E. injection E as <-. split; [lia|discriminate].
    + intros x E. injection E as <-. lia.
    + repeat constructor. intros [].
    + cbn [cseg Nat.eqb]. split; [eexists; split; reflexivity|exact I].
    + cbn [pseg Nat.eqb]. split; [|exact I]. intros m d E. injection E as <-. discriminate.
    + reflexivity.
    + right. reflexivity.
    + constructor; [|constructor]. eexists. split; [reflexivity|]. auto.
  - cbn [withLen withLast withFirst blockSize reserved used ivs map snd]. split; cbn [app pairwise].
    + repeat constructor.
    + constructor; [unfold inside; cbn [fst snd]; lia|constructor].
    + constructor; [intros _; reflexivity|constructor].
    + constructor.
Qed.

(** Whatever is called, what a caller holds are pairwise disjoint blocks of the size
    asked for inside the reserved region, at aligned offsets. *)
Theorem C30_never_overlaps : forall bs st tot cs s0 s ans,
  0 < bs -> 0 < tot -> reserve (makeBFC bs) st tot = Some s0 -> run s0 cs = Some (s, ans) ->
  pairwise (held [] cs ans) /\
  Forall (fun x => 0 < snd x /\ st <= fst x /\ fst x + snd x <= st + tot /\ (fst x - st) mod bs = 0) (held [] cs ans).
Proof.
  intros bs st tot cs s0 s ans Hb Ht R0 R. destruct (reserve_ok _ _ _ _ Hb Ht R0) as [V [E1 [E2 [E3 [E4 _]]]]].
  assert (G : forall cs s0 h s ans, Inv s0 -> start s0 = st -> blockSize s0 = bs -> reserved s0 = tot ->
     used s0 = map (fun x => (fst x - st, snd x)) h -> run s0 cs = Some (s, ans) ->
     Inv s /\ blockSize s = bs /\ reserved s = tot /\ used s = map (fun x => (fst x - st, snd x)) (held h cs ans)).
  { clear - Hb. induction cs as [|c cs IH]; intros s0 h s ans V E1 E2 E3 U R; cbn [run] in R.
    - injection R as <- <-. auto.
    - apply bind_inv in R as [[s1 r] [R1 R]]. apply bind_inv in R as [[s2 rs] [R2 R]]. injection R as <- <-. cbn [fst snd] in *.
      destruct c as [z|a]; cbn [step] in R1.
      + destruct (alloc_ok _ _ _ _ V ltac:(lia) R1) as [V1 [Q1 [Q2 [Q3 [Q4 _]]]]].
        destruct r as [a| | |]; cbn [held].
        * destruct Q4 as [Q4 _]. apply (IH s1); auto; try congruence. cbn [map fst snd]. rewrite Q4, U, E1. reflexivity.
        * apply (IH s1); auto; congruence.
        * apply (IH s1); auto; congruence.
        * apply (IH s1); auto; congruence.
      + destruct (free_ok _ _ _ _ V R1) as [V1 [Q1 [Q2 [Q3 [Q4 _]]]]]. cbn [held].
        apply (IH s1); auto; try congruence. rewrite Q4, U, E1. clear. unfold usedDel. induction h as [|[x y] h IH]; [reflexivity|].
        cbn [map filter fst snd]. assert (E : (x - st =? a - st) = (x =? a)) by (destruct (Z.eqb_spec x a), (Z.eqb_spec (x - st) (a - st)); lia).
        rewrite E. destruct (x =? a); cbn [negb]; [exact IH|]. cbn [map fst snd]. f_equal. exact IH. }
  destruct (G cs s0 [] s ans V E1 E2 E3 E4 R) as [[ns [tl [_ O]]] [B1 [B2 B3]]]. rewrite B1, B2, B3 in O.
  pose proof (ok_pw O) as W. apply pairwise_app in W as [_ [W _]]. pose proof (ok_in O) as I. apply Forall_app in I as [_ I]. pose proof (ok_us O) as A.
  split.
  - clear - W. induction (held [] cs ans) as [|x h IH]; [exact Logic.I|]. cbn [map pairwise] in *. destruct W as [W1 W2]. split; [|auto].
    rewrite Forall_map in W1. eapply Forall_impl; [|exact W1]. intro y. unfold disjoint. cbn [fst snd]. lia.
  - rewrite Forall_map in I, A. rewrite Forall_forall in *. intros x J. specialize (I x J). specialize (A x J). unfold inside in I. cbn [fst snd] in *. repeat split; lia || exact A.
Qed.
Print Assumptions C30_never_overlaps.

(** The counter an out-of-memory error reports is the number of bytes the caller holds. *)
Theorem C30_allocated : forall bs st tot cs s0 s ans,
  0 < bs -> 0 < tot -> reserve (makeBFC bs) st tot = Some s0 -> run s0 cs = Some (s, ans) ->
  allocated s = sizes (held [] cs ans).
Proof.
  intros bs st tot cs s0 s ans Hb Ht R0 R. destruct (reserve_ok _ _ _ _ Hb Ht R0) as [V [E1 [E2 [E3 [E4 E5]]]]].
  assert (G : forall cs s0 h s ans, Inv s0 -> start s0 = st -> blockSize s0 = bs ->
     used s0 = map (fun x => (fst x - st, snd x)) h -> allocated s0 = sizes (used s0) -> run s0 cs = Some (s, ans) ->
     allocated s = sizes (held h cs ans)).
  { clear - Hb. induction cs as [|c cs IH]; intros s0 h s ans V E1 E2 U A R; cbn [run] in R.
    - injection R as <- <-. rewrite A, U. cbn [held]. clear. induction h as [|x h IH]; [reflexivity|]. unfold sizes in *. cbn [map fold_right snd]. rewrite IH. reflexivity.
    - apply bind_inv in R as [[s1 r] [R1 R]]. apply bind_inv in R as [[s2 rs] [R2 R]]. injection R as <- <-. cbn [fst snd] in *.
      destruct c as [z|a]; cbn [step] in R1.
      + destruct (alloc_ok _ _ _ _ V ltac:(lia) R1) as [V1 [Q1 [Q2 [Q3 [Q4 Q5]]]]].
        destruct r as [a| | |]; cbn [held].
        * destruct Q4 as [Q4 _]. apply (IH s1); auto; try congruence; [|lia]. cbn [map fst snd]. rewrite Q4, U, E1. reflexivity.
        * apply (IH s1); auto; congruence || lia.
        * apply (IH s1); auto; congruence || lia.
        * apply (IH s1); auto; congruence || lia.
      + destruct (free_ok _ _ _ _ V R1) as [V1 [Q1 [Q2 [Q3 [Q4 Q5]]]]]. cbn [held].
        apply (IH s1); auto; try congruence; [|lia]. rewrite Q4, U, E1. clear. unfold usedDel. induction h as [|[x y] h IH]; [reflexivity|].
        cbn [map filter fst snd]. assert (E : (x - st =? a - st) = (x =? a)) by (destruct (Z.eqb_spec x a), (Z.eqb_spec (x - st) (a - st)); lia).
        rewrite E. destruct (x =? a); cbn [negb]; [exact IH|]. cbn [map fst snd]. f_equal. exact IH. }
  apply (G cs s0 [] s ans V E1 E2 E4); [rewrite E4; exact E5|exact R].
Qed.
Print Assumptions C30_allocated.

Definition refutCalls : list call :=
  [Alloc 256; Alloc 256; Alloc 256; Alloc 512; Free 65536; Free (65536 + 256); Free (65536 + 768)].
(** Coalescing leaves a back link to a merged block.  After three blocks of four were
    returned, a first request beyond the merged blocks is served and the next ends in a
    nil dereference although more than half of the region is free. *)
Theorem C30_coalesce_refuted : exists s0 s1 s2 ans1 a2,
  reserve (makeBFC 256) 65536 4096 = Some s0 /\ run s0 refutCalls = Some (s1, ans1) /\
  held [] refutCalls ans1 = [(65536 + 512, 256)] /\
  alloc s1 1024 = Some (s2, a2) /\ a2 = Address (65536 + 768) /\
  sizes (held [] (refutCalls ++ [Alloc 1024]) (ans1 ++ [a2])) = 1280 /\
  alloc s2 1024 = None.
Proof.
  do 5 eexists. split; [reflexivity|]. split; [vm_compute; reflexivity|]. split; [vm_compute; reflexivity|].
  split; [vm_compute; reflexivity|]. split; [reflexivity|]. split; vm_compute; reflexivity.
Qed.
Print Assumptions C30_coalesce_refuted.

Example C30_ex : exists s0 s ans, reserve (makeBFC 256) 65536 4096 = Some s0 /\
  run s0 [Alloc 100; Alloc 300; Free 65536; Alloc 20; Alloc 5000] = Some (s, ans) /\
  ans = [Address 65536; Address (65536 + 256); Freed; Address (65536 + 768); OutOfMemory] /\
  held [] [Alloc 100; Alloc 300; Free 65536; Alloc 20; Alloc 5000] ans = [(65536 + 768, 20); (65536 + 256, 300)].
Proof.
  do 3 eexists. split; [reflexivity|]. split; [vm_compute; reflexivity|]. split; vm_compute; reflexivity.
Qed.
