(** C30, continued: histories in which merging is harmless. *)
From Coq Require Import Arith ZArith List Bool Lia Permutation.
From Verif Require Import BfcModel BfcSpec BfcProofs BfcProps BfcCalm.
Import ListNotations.
Open Scope Z_scope.

Lemma reserve_calm bs st tot s : 0 < bs -> 0 < tot -> reserve (makeBFC bs) st tot = Some s -> CInv s /\ start s = st /\ blockSize s = bs /\ reserved s = tot /\ used s = [].
Proof.
  intros Hb Ht R. destruct (reserve_ok _ _ _ _ Hb Ht R) as [_ [E1 [E2 [E3 [E4 _]]]]]. repeat split; try assumption.
  unfold reserve in R. cbn [makeBFC mem fresh first last len blockSize used allocated allocs frees newMemblock] in R.
  cbn [insert first] in R. injection R as <-. exists [(0%nat, (0, tot))]. cbn [withLen withLast withFirst blockSize reserved used ivs map snd]. split; [|split; [exact Hb|split]].
  - split; cbn [withLen withLast withFirst mem fresh first last len ptrs ivs map fst snd]; try reflexivity.
    + cbn [seg ptrs map hdor Nat.eqb]. auto.
    + constructor; [intros []|constructor].
    + constructor; [lia|constructor].
    + constructor; constructor.
  - split; cbn [app pairwise].
    + repeat constructor.
    + constructor; [unfold inside; cbn [fst snd]; lia|constructor].
    + constructor; [intros _; reflexivity|constructor].
    + constructor.
  - cbn [sizes fold_right snd]. lia.
Qed.

Lemma run_calm bs st tot : forall cs s0 h, CInv s0 -> start s0 = st -> blockSize s0 = bs -> reserved s0 = tot ->
  used s0 = map (fun x => (fst x - st, snd x)) h -> calmRun s0 cs ->
  exists s ans, run s0 cs = Some (s, ans) /\ CInv s /\ start s = st /\ blockSize s = bs /\ reserved s = tot /\
    used s = map (fun x => (fst x - st, snd x)) (held h cs ans).
Proof.
  induction cs as [|c cs IH]; intros s0 h V E1 E2 E3 U C; cbn [run].
  - exists s0, []. repeat split; assumption.
  - cbn [calmRun] in C. destruct C as [C1 C2]. destruct (step_calm s0 c V C1) as [s1 [r [R [V1 [[K1 [K2 K3]] K]]]]]. rewrite R. cbn [bind fst snd].
    assert (G : forall h', used s1 = map (fun x => (fst x - st, snd x)) h' -> exists s ans, run s1 cs = Some (s, ans) /\ CInv s /\ start s = st /\ blockSize s = bs /\ reserved s = tot /\
      used s = map (fun x => (fst x - st, snd x)) (held h' cs ans)).
    { intros h' Hu. apply IH; try congruence; first [exact V1|apply (C2 s1 r R)]. }
    assert (X : exists h', used s1 = map (fun x => (fst x - st, snd x)) h' /\ forall ans, held h (c :: cs) (r :: ans) = held h' cs ans).
    { destruct c as [z|a].
      - destruct r as [a| | |].
        + exists ((a, z) :: h). split; [rewrite K, U, E1; reflexivity|reflexivity].
        + exists h. rewrite K. split; [exact U|reflexivity].
        + exists h. rewrite K. split; [exact U|reflexivity].
        + exists h. rewrite K. split; [exact U|reflexivity].
      - exists (filter (fun e => negb (fst e =? a)) h). split; [|destruct r; reflexivity]. rewrite K, U, E1. clear. unfold usedDel. induction h as [|[x y] h IH]; [reflexivity|].
        cbn [map filter fst snd]. assert (E : (x - st =? a - st) = (x =? a)) by (destruct (Z.eqb_spec x a), (Z.eqb_spec (x - st) (a - st)); lia).
        rewrite E. destruct (x =? a); cbn [negb]; [exact IH|]. cbn [map fst snd]. f_equal. exact IH. }
    destruct X as [h' [X1 X2]]. destruct (G h' X1) as [s [ans [G1 G2]]]. rewrite G1. cbn [bind fst snd]. exists s, (r :: ans). split; [reflexivity|]. rewrite X2. exact G2.
Qed.

(** No call panics, and what is free and what is held add up to the reserved region. *)
Theorem C30_calm_conserves : forall bs st tot cs s0,
  0 < bs -> 0 < tot -> reserve (makeBFC bs) st tot = Some s0 -> calmRun s0 cs ->
  exists s ans, run s0 cs = Some (s, ans) /\ sizes (freeBlocks s) + sizes (held [] cs ans) = tot.
Proof.
  intros bs st tot cs s0 Hb Ht R C. destruct (reserve_calm _ _ _ _ Hb Ht R) as [V [E1 [E2 [E3 E4]]]].
  destruct (run_calm bs st tot cs s0 [] V E1 E2 E3 E4 C) as [s [ans [R1 [[ns [D [_ [_ Z]]]] [F1 [F2 [F3 F4]]]]]]].
  exists s, ans. split; [exact R1|]. rewrite (dll_free _ _ D). rewrite F4, F3 in Z. rewrite <- Z. f_equal. clear.
  induction (held [] cs ans) as [|x h IH]; [reflexivity|]. cbn [map]. rewrite !sizes_cons. cbn [snd]. lia.
Qed.
Print Assumptions C30_calm_conserves.

(** After such a history a request is served from the first free block, in the order of
    addresses, that is large enough once the size is rounded up. *)
Theorem C30_first_fit : forall bs st tot cs s0 s ans z l1 a zb l2,
  0 < bs -> 0 < tot -> reserve (makeBFC bs) st tot = Some s0 -> calmRun s0 cs -> run s0 cs = Some (s, ans) -> 0 < z ->
  freeBlocks s = l1 ++ (a, zb) :: l2 -> Forall (fun x => snd x < z + (- z) mod bs) l1 -> z + (- z) mod bs <= zb ->
  exists s', alloc s z = Some (s', Address (st + a)).
Proof.
  intros bs st tot cs s0 s ans z l1 a zb l2 Hb Ht R C R' Hz Ef F L. destruct (reserve_calm _ _ _ _ Hb Ht R) as [V [E1 [E2 [E3 E4]]]].
  destruct (run_calm bs st tot cs s0 [] V E1 E2 E3 E4 C) as [s1 [ans1 [R1 [[ns [D [_ [O Z]]]] [F1 [F2 [F3 F4]]]]]]].
  rewrite R1 in R'. injection R' as -> ->. rewrite (dll_free _ _ D) in Ef.
  assert (Al : align s z = z + (- z) mod bs).
  { unfold align. rewrite F2. rewrite Z.rem_mod_nonneg by lia. destruct (Z.eqb_spec (z mod bs) 0) as [E|E].
    - rewrite Z.mod_opp_l_z by lia. lia.
    - rewrite Z.mod_opp_l_nz by lia. lia. }
  rewrite <- Al in F, L. unfold alloc. rewrite (proj2 (Z.leb_gt _ _)) by lia.
  destruct (bestFit_dll s ns (align s z) D) as [[k1 [p [a' [z' [k2 [En [Fk [Lk E]]]]]]]]|[Fn E]]; rewrite E; cbn [bind].
  - assert (X : ivs k1 = l1 /\ a' = a).
    { rewrite En, ivs_app, ivs_cons in Ef. clear - Ef Fk F L Lk. revert l1 Ef F. induction (ivs k1) as [|x k IH]; intros [|y l1] Ef F; cbn [app] in Ef.
      - injection Ef as -> _ _. auto.
      - injection Ef as <- _. inversion F; subst. cbn [snd] in *. lia.
      - injection Ef as -> _. inversion Fk; subst. cbn [snd] in *. lia.
      - injection Ef as -> Ef. inversion F; inversion Fk; subst. destruct (IH ltac:(assumption) l1 Ef ltac:(assumption)) as [-> ->]. auto. }
    destruct X as [_ ->]. subst ns. destruct (take_dll s k1 p a z' k2 z D ltac:(lia) O ltac:(lia) Hz Lk) as [s' [T _]].
    exists s'. rewrite T. rewrite F1. rewrite Z.add_comm. reflexivity.
  - exfalso. rewrite Ef in Fn. apply Forall_app in Fn as [_ Fn]. inversion Fn; subst. cbn [snd] in *. lia.
Qed.
Print Assumptions C30_first_fit.

(** A history with merging that is harmless: the second block is released while the rest
    of the region is free behind it (and the remnant of its rounding between them). *)
Definition calmCalls : list call := [Alloc 256; Alloc 300; Free (65536 + 256); Free 65536; Alloc 3000].
Example C30_calm_ex : exists s0 s ans, reserve (makeBFC 256) 65536 4096 = Some s0 /\ calmRun s0 calmCalls /\
  run s0 calmCalls = Some (s, ans) /\ ans = [Address 65536; Address (65536 + 256); Freed; Freed; Address 65536] /\
  freeBlocks s = [(3000, 72); (3072, 1024)].
Proof.
  assert (Big : forall x l (z : Z), Forall (fun y : Z * Z => snd y < z) (x :: l) -> z <= snd x -> False) by (intros x l z H L; inversion H; subst; lia).
  do 3 eexists. split; [reflexivity|]. split; [|split; [vm_compute; reflexivity|split; [reflexivity|vm_compute; reflexivity]]].
  cbn [calmCalls calmRun]. split.
  { intros _ F. exfalso. match type of F with Forall _ ?l => let l' := eval vm_compute in l in change l with l' in F end. eapply Big; [exact F|vm_compute; discriminate]. }
  intros s1 r1 R1. vm_compute in R1. injection R1 as <- <-. split.
  { intros _ F. exfalso. match type of F with Forall _ ?l => let l' := eval vm_compute in l in change l with l' in F end. eapply Big; [exact F|vm_compute; discriminate]. }
  intros s1 r1 R1. vm_compute in R1. injection R1 as <- <-. split.
  { intros z s1 E1 E2 T. vm_compute in E1. injection E1 as <-. vm_compute in E2. injection E2 as <-. vm_compute in T. discriminate. }
  intros s1 r1 R1. vm_compute in R1. injection R1 as <- <-. split.
  { intros z s1 E1 E2 T. vm_compute in E1. injection E1 as <-. vm_compute in E2. injection E2 as <-.
    match goal with |- calm ?b ?l => let l' := eval vm_compute in l in change (calm b l') end.
    intros l1 x y l2 E _ _ k1 u v k2 E'. 
    assert (H : forall l1 x y l2, [(0, 256); (256, 300); (556, 212); (768, 3328)] = l1 ++ x :: y :: l2 -> fst x + snd x = fst y).
    { clear. intros l1 x y l2 E. destruct l1 as [|? [|? [|? [|? [|? ?]]]]]; cbn [app] in E; inversion E; subst; try reflexivity. }
    apply (H (l1 ++ x :: k1) u v k2). rewrite E, E', <- app_assoc. reflexivity. }
  intros s1 r1 R1. vm_compute in R1. injection R1 as <- <-. split; [|auto].
  intros _ F. exfalso. match type of F with Forall _ ?l => let l' := eval vm_compute in l in change l with l' in F end. eapply Big; [exact F|vm_compute; discriminate].
Qed.
