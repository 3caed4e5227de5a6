(** C115: ResetAllocator on the GPU memory pool. *)
From Coq Require Import Arith ZArith List Bool Lia Permutation Sorted.
From Verif Require Import BfcModel BfcSpec BfcProofs BfcProps BfcCalm BfcCalmProps BfcResetModel.
Import ListNotations.
Open Scope Z_scope.

Lemma reset_inv s : Inv s -> Inv (resetStats s).
Proof.
  intros [ns [tl [L O]]]. exists ns, tl. split; [|exact O]. destruct L. split; cbn [resetStats mem fresh first last]; assumption.
Qed.
Lemma run_inv bs st tot : 0 < bs -> forall cs s0 h s ans, Inv s0 -> start s0 = st -> blockSize s0 = bs -> reserved s0 = tot ->
  used s0 = map (fun x => (fst x - st, snd x)) h -> allocated s0 = sizes (used s0) -> run s0 cs = Some (s, ans) ->
  Inv s /\ start s = st /\ blockSize s = bs /\ reserved s = tot /\ used s = map (fun x => (fst x - st, snd x)) (held h cs ans) /\ allocated s = sizes (used s).
Proof.
  intro Hb. induction cs as [|c cs IH]; intros s0 h s ans V E1 E2 E3 U A R; cbn [run] in R.
  - injection R as <- <-. auto 10.
  - apply bind_inv in R as [[s1 r] [R1 R]]. apply bind_inv in R as [[s2 rs] [R2 R]]. injection R as <- <-. cbn [fst snd] in *.
    destruct c as [z|a]; cbn [step] in R1.
    + destruct (alloc_ok _ _ _ _ V ltac:(lia) R1) as [V1 [Q1 [Q2 [Q3 [Q4 Q5]]]]].
      destruct r as [a| | |]; cbn [held].
      * destruct Q4 as [Q4 _]. apply (IH s1); auto; try congruence; [|lia]. cbn [map fst snd]. rewrite Q4, U, E1. reflexivity.
      * apply (IH s1); auto; congruence || lia.
      * apply (IH s1); auto; congruence || lia.
      * apply (IH s1); auto; congruence || lia.
    + destruct (free_ok _ _ _ _ V R1) as [V1 [Q1 [Q2 [Q3 [Q4 Q5]]]]]. cbn [held].
      apply (IH s1); auto; try congruence; [|lia]. rewrite Q4, U, E1. clear. unfold usedDel. induction h as [|[x y] h IH]; [reflexivity|].
      cbn [map filter fst snd]. assert (E : (x - st =? a - st) = (x =? a)) by (destruct (Z.eqb_spec x a), (Z.eqb_spec (x - st) (a - st)); lia).
      rewrite E. destruct (x =? a); cbn [negb]; [exact IH|]. cbn [map fst snd]. f_equal. exact IH.
Qed.
Lemma freeAll_inv : forall keys s s', Inv s -> freeAll s keys = Some s' ->
  Inv s' /\ start s' = start s /\ blockSize s' = blockSize s /\ reserved s' = reserved s /\ used s' = fold_left usedDel keys (used s).
Proof.
  induction keys as [|k keys IH]; intros s s' V R; cbn [freeAll] in R.
  - injection R as <-. auto.
  - apply bind_inv in R as [[s1 r] [R1 R]]. cbn [fst] in R. destruct (free_ok _ _ _ _ V R1) as [V1 [Q1 [Q2 [Q3 [Q4 _]]]]].
    destruct (IH _ _ V1 R) as [V2 [P1 [P2 [P3 P4]]]]. split; [exact V2|]. split; [congruence|]. split; [congruence|]. split; [congruence|].
    cbn [fold_left]. rewrite P4, Q4. f_equal. f_equal. lia.
Qed.
Lemma del_in us k x : In x (usedDel us k) -> In x us /\ fst x <> k.
Proof. unfold usedDel. rewrite filter_In. intros [H1 H2]. split; [exact H1|]. intro E. rewrite E, Z.eqb_refl in H2. discriminate. Qed.
Lemma dels_in : forall keys us x, In x (fold_left usedDel keys us) -> In x us /\ ~ In (fst x) keys.
Proof.
  induction keys as [|k keys IH]; intros us x J; cbn [fold_left] in J; [split; [exact J|intros []]|].
  destruct (IH _ _ J) as [J1 J2]. apply del_in in J1 as [J1 J3]. split; [exact J1|]. intros [E|E]; [congruence|contradiction].
Qed.
Lemma dels_all keys us : Permutation keys (map fst us) -> fold_left usedDel keys us = [].
Proof.
  intro P. destruct (fold_left usedDel keys us) as [|x l] eqn:E; [reflexivity|]. exfalso.
  destruct (dels_in keys us x) as [J1 J2]; [rewrite E; left; reflexivity|]. apply J2. eapply Permutation_in; [symmetry; exact P|]. apply in_map. exact J1.
Qed.

(** A reset that does not panic leaves a pool from which nothing is handed out, and from
    then on the pool is as safe as a new one: what is handed out after the reset is
    disjoint, inside the region and aligned, and the counter agrees with it. *)
Theorem C115_reset : forall bs st tot cs s0 s ans keys s1 cs' s2 ans',
  0 < bs -> 0 < tot -> reserve (makeBFC bs) st tot = Some s0 -> run s0 cs = Some (s, ans) ->
  Permutation keys (map fst (used s)) -> resetAllocator s keys = Some s1 -> run s1 cs' = Some (s2, ans') ->
  used s1 = [] /\ allocated s1 = 0 /\ allocs s1 = 0 /\ frees s1 = 0 /\
  pairwise (held [] cs' ans') /\ allocated s2 = sizes (held [] cs' ans') /\
  Forall (fun x => 0 < snd x /\ st <= fst x /\ fst x + snd x <= st + tot /\ (fst x - st) mod bs = 0) (held [] cs' ans').
Proof.
  intros bs st tot cs s0 s ans keys s1 cs' s2 ans' Hb Ht R0 R P Rs R'. destruct (reserve_ok _ _ _ _ Hb Ht R0) as [V [E1 [E2 [E3 [E4 E5]]]]].
  destruct (run_inv bs st tot Hb cs s0 [] s ans V E1 E2 E3 E4 ltac:(rewrite E4; exact E5) R) as [W [F1 [F2 [F3 [F4 F5]]]]].
  unfold resetAllocator in Rs. apply bind_inv in Rs as [x1 [Rs1 Rs]]. apply bind_inv in Rs as [x2 [Rs2 Rs]]. injection Rs as <-.
  destruct (freeAll_inv _ _ _ W Rs1) as [W1 [G1 [G2 [G3 G4]]]]. rewrite (dels_all _ _ P) in G4.
  destruct (coalesce_ok _ _ W1 Rs2) as [[Q1 [Q2 [Q3 [Q4 [Q5 Q6]]]]] W2].
  assert (U : used (resetStats x2) = []) by (cbn [resetStats used]; congruence).
  split; [exact U|]. split; [reflexivity|]. split; [reflexivity|]. split; [reflexivity|].
  destruct (run_inv bs st tot Hb cs' (resetStats x2) [] s2 ans' (reset_inv _ W2)) as [[ns [tl [_ O]]] [H1 [H2 [H3 [H4 H5]]]]]; [cbn [resetStats start]; congruence|cbn [resetStats blockSize]; congruence|cbn [resetStats reserved]; congruence|exact U|rewrite U; reflexivity|exact R'|].
  rewrite H2, H3, H4 in O. rewrite H4 in H5.
  pose proof (ok_pw O) as Wp. apply pairwise_app in Wp as [_ [Wp _]]. pose proof (ok_in O) as I. apply Forall_app in I as [_ I]. pose proof (ok_us O) as A.
  split; [|split].
  - clear - Wp. induction (held [] cs' ans') as [|x h IH]; [exact Logic.I|]. cbn [map pairwise] in *. destruct Wp as [W1 W2]. split; [|auto].
    rewrite Forall_map in W1. eapply Forall_impl; [|exact W1]. intro y. unfold disjoint. cbn [fst snd]. lia.
  - rewrite H5. clear. induction (held [] cs' ans') as [|x h IH]; [reflexivity|]. cbn [map]. rewrite !sizes_cons. cbn [snd]. lia.
  - rewrite Forall_map in I, A. rewrite Forall_forall in *. intros x J. specialize (I x J). specialize (A x J). unfold inside in I. cbn [fst snd] in *. repeat split; lia || exact A.
Qed.
Print Assumptions C115_reset.

(** ** Nothing is lost when the merges are harmless *)
Lemma run_app cs cs' : forall s, run s (cs ++ cs') =
  do x <- run s cs; do y <- run (fst x) cs'; Some (fst y, snd x ++ snd y).
Proof.
  induction cs as [|c cs IH]; intro s; cbn [app run].
  - cbn [bind fst snd app]. destruct (run s cs') as [[? ?]|]; reflexivity.
  - destruct (step s c) as [[s1 r]|]; [|reflexivity]. cbn [bind fst snd]. rewrite IH. destruct (run s1 cs) as [[s2 rs]|]; [|reflexivity]. cbn [bind fst snd].
    destruct (run s2 cs') as [[s3 rs']|]; reflexivity.
Qed.
Lemma calmRun_app cs cs' : forall s, calmRun s (cs ++ cs') -> calmRun s cs /\ forall s' a, run s cs = Some (s', a) -> calmRun s' cs'.
Proof.
  induction cs as [|c cs IH]; intros s C; cbn [app calmRun] in C.
  - split; [exact I|]. intros s' a E. cbn [run] in E. injection E as <- <-. exact C.
  - destruct C as [C1 C2]. split.
    + split; [exact C1|]. intros s1 a E. apply (IH s1). apply (C2 s1 a E).
    + intros s' a E. cbn [run] in E. apply bind_inv in E as [[s1 r] [E1 E]]. apply bind_inv in E as [[s2 rs] [E2 E]]. injection E as <- <-. cbn [fst snd] in *.
      apply (proj2 (IH s1 (C2 s1 r E1)) s2 rs E2).
Qed.
Lemma freeAll_run : forall keys s s' a st, Inv s -> start s = st -> run s (map (fun k => Free (k + st)) keys) = Some (s', a) -> freeAll s keys = Some s'.
Proof.
  induction keys as [|k keys IH]; intros s s' a st V <- R; cbn [map run freeAll] in *.
  - injection R as <- <-. reflexivity.
  - apply bind_inv in R as [[s1 r] [R1 R]]. apply bind_inv in R as [[s2 rs] [R2 R]]. injection R as <- <-. cbn [step fst snd] in *. rewrite R1. cbn [bind fst].
    destruct (free_ok _ _ _ _ V R1) as [V1 [Q1 _]]. apply (IH s1 s2 rs (start s) V1 Q1 R2).
Qed.

Lemma sorted_sizes tot : forall l lo, StronglySorted before l -> Forall (fun x => 0 < snd x /\ lo <= fst x /\ fst x + snd x <= tot) l -> lo <= tot -> sizes l <= tot - lo.
Proof.
  induction l as [|[a z] l IH]; intros lo So F L; [cbn; lia|]. rewrite sizes_cons. cbn [snd]. inversion So as [|? ? S1 S2]; subst. apply Forall_cons_iff in F as [F1 F2]. cbn [fst snd] in F1.
  assert (X : sizes l <= tot - (a + z)); [|lia]. apply IH; [exact S1| |lia]. rewrite Forall_forall in *. intros x J. specialize (F2 x J). specialize (S2 x J). unfold before in S2. cbn [fst snd] in *. lia.
Qed.
Lemma sorted_full tot : forall l lo, StronglySorted before l -> Forall (fun x => 0 < snd x /\ lo <= fst x /\ fst x + snd x <= tot) l -> lo <= tot -> sizes l = tot - lo ->
  contiguous l /\ (forall x r, l = x :: r -> fst x = lo).
Proof.
  induction l as [|[a z] l IH]; intros lo So F L Sz.
  - split; [intros [|? ?] x y l2 E; discriminate|discriminate].
  - rewrite sizes_cons in Sz. cbn [snd] in Sz. inversion So as [|? ? S1 S2]; subst. apply Forall_cons_iff in F as [F1 F2]. cbn [fst snd] in F1.
    assert (F3 : Forall (fun x => 0 < snd x /\ a + z <= fst x /\ fst x + snd x <= tot) l).
    { rewrite Forall_forall in *. intros x J. specialize (F2 x J). specialize (S2 x J). unfold before in S2. cbn [fst snd] in *. lia. }
    pose proof (sorted_sizes tot l (a + z) S1 F3 ltac:(lia)) as B. assert (a = lo) by lia. subst lo.
    destruct (IH (a + z) S1 F3 ltac:(lia) ltac:(lia)) as [C H]. split; [|intros x r E; injection E as <- _; reflexivity].
    intros l1 x y l2 E. destruct l1 as [|x1 l1]; cbn [app] in E; injection E as <- E.
    + cbn [fst snd]. symmetry. apply (H y l2 E).
    + apply (C l1 x y l2 E).
Qed.

Lemma coalesce_full s ns : Dll s ns -> 0 < blockSize s -> 0 < reserved s -> okIv (blockSize s) (reserved s) (ivs ns) (used s) -> sizes (ivs ns) = reserved s ->
  exists s' p, coalesce s = Some s' /\ Dll s' [(p, (0, reserved s))] /\ same s s'.
Proof.
  intros D Hb Ht O Sz.
  assert (F : Forall (fun x => 0 < snd x /\ 0 <= fst x /\ fst x + snd x <= reserved s) (ivs ns)).
  { pose proof (ok_in O) as J. apply Forall_app in J as [J _]. exact J. }
  destruct (sorted_full (reserved s) (ivs ns) 0 (d_sorted _ _ D) F ltac:(lia) ltac:(lia)) as [C H].
  destruct ns as [|[p [a z]] n2]; [cbn in Sz; lia|]. rewrite ivs_cons in *. assert (a = 0) by (apply (H (a, z) _ eq_refl)). subst a.
  assert (Ep := seg_at _ _ [] _ _ _ _ _ (d_seg _ _ D)). cbn [ptrs map lastor] in Ep.
  destruct (innerAll n2 (S (fresh s)) s [] p 0 z) as [s1 [E1 [D1 [S1 F1]]]].
  { pose proof (dll_length _ _ D) as L. cbn [length] in L. unfold block in *. lia. }
  { exact I. } { exact Ep. }
  { pose proof (d_seg _ _ D) as G. cbn [seg] in G. destruct G as [_ G]. eapply seg_wseg. exact G. }
  { apply (d_first _ _ D). } { apply (d_last _ _ D). discriminate. }
  { apply (d_nodup _ _ D). } { apply (d_lt _ _ D). } { apply (d_len _ _ D). } { apply (d_sorted _ _ D). } { exact C. }
  cbn [app] in D1. rewrite sizes_cons in Sz. cbn [snd] in Sz. rewrite Sz in D1.
  exists s1, p. split; [|split; [exact D1|exact S1]].
  unfold coalesce. rewrite (d_first _ _ D). cbn [ptrs map fst hdor coalesceLoop]. unfold deref. rewrite Ep. cbn [bind address]. rewrite Z.mod_0_l by lia. cbn [Z.eqb negb].
  rewrite E1. cbn [bind]. rewrite (seg_at _ _ [] _ _ _ _ _ (d_seg _ _ D1)). cbn [bind next ptrs map hdor].
  pose proof (dll_length _ _ D) as L. cbn [length] in L. destruct (fresh s); [unfold block in *; lia|]. reflexivity.
Qed.

(** If the merges of the history and of the releases are harmless, the reset does not
    panic and the whole region is one free block again, in whatever order the map was
    read: the next request is served at the start of the region. *)
Theorem C115_whole : forall bs st tot cs s0 s ans keys,
  0 < bs -> 0 < tot -> reserve (makeBFC bs) st tot = Some s0 -> run s0 cs = Some (s, ans) ->
  Permutation keys (map fst (used s)) -> calmRun s0 (cs ++ map (fun k => Free (k + st)) keys) ->
  exists s1, resetAllocator s keys = Some s1 /\ freeBlocks s1 = [(0, tot)] /\
    forall z, 0 < z -> z + (- z) mod bs <= tot -> exists s2, alloc s1 z = Some (s2, Address st).
Proof.
  intros bs st tot cs s0 s ans keys Hb Ht R0 R P C. destruct (reserve_ok _ _ _ _ Hb Ht R0) as [V [E1 [E2 [E3 [E4 E5]]]]].
  destruct (run_inv bs st tot Hb cs s0 [] s ans V E1 E2 E3 E4 ltac:(rewrite E4; exact E5) R) as [W [F1 [F2 [F3 [F4 F5]]]]].
  destruct (calmRun_app _ _ _ C) as [C1 C2]. specialize (C2 s ans R).
  destruct (reserve_calm _ _ _ _ Hb Ht R0) as [V0 _].
  destruct (run_calm bs st tot cs s0 [] V0 E1 E2 E3 E4 C1) as [s' [ans0 [R' [V1 _]]]]. rewrite R in R'. injection R' as <- <-.
  destruct (run_calm bs st tot _ s (held [] cs ans) V1 F1 F2 F3 F4 C2) as [x1 [a1 [R1 [[ns [D [Hb1 [O Sz]]]] [G1 [G2 [G3 _]]]]]]].
  pose proof (freeAll_run _ _ _ _ _ W F1 R1) as Fa. destruct (freeAll_inv _ _ _ W Fa) as [_ [_ [_ [_ U]]]]. rewrite (dels_all _ _ P) in U.
  rewrite U in Sz. cbn [sizes fold_right] in Sz. rewrite Z.add_0_r in Sz.
  destruct (coalesce_full x1 ns D Hb1 ltac:(lia) O Sz) as [x2 [p [Ec [D2 [Q1 [Q2 [Q3 [Q4 [Q5 _]]]]]]]]].
  exists (resetStats x2). split; [unfold resetAllocator; rewrite Fa; cbn [bind]; rewrite Ec; reflexivity|].
  assert (D3 : Dll (resetStats x2) [(p, (0, reserved x1))]) by (destruct D2; split; cbn [resetStats mem fresh first last len]; assumption).
  rewrite G3 in D3. split; [rewrite (dll_free _ _ D3); reflexivity|]. intros z Hz Lz.
  assert (Al : align (resetStats x2) z = z + (- z) mod bs).
  { unfold align. cbn [resetStats blockSize]. rewrite Q3, G2. rewrite Z.rem_mod_nonneg by lia. destruct (Z.eqb_spec (z mod bs) 0) as [E|E].
    - rewrite Z.mod_opp_l_z by lia. lia.
    - rewrite Z.mod_opp_l_nz by lia. lia. }
  unfold alloc. rewrite (proj2 (Z.leb_gt _ _)) by lia.
  destruct (bestFit_dll (resetStats x2) _ (align (resetStats x2) z) D3) as [[k1 [q [a' [z' [k2 [En [Fk [Lk E]]]]]]]]|[Fn E]]; rewrite E; cbn [bind].
  - destruct k1 as [|? k1]; [|destruct k1; discriminate En]. cbn [app] in En. injection En as <- <- <- <-.
    destruct (take_dll (resetStats x2) [] p 0 tot [] z) as [s2 [T _]]; cbn [app resetStats blockSize reserved used ivs map snd sizes fold_right]; try exact D3; try exact Hz; try exact Lk; [lia| | |].
    + rewrite Q3, Q4, Q5, U. split; cbn [app].
      * cbn [pairwise]. auto.
      * constructor; [unfold inside; cbn [fst snd]; lia|constructor].
      * constructor; [intros _; apply Z.mod_0_l; lia|constructor].
      * constructor.
    + rewrite Q4, Q5, U. cbn [fold_right]. lia.
    + exists s2. rewrite T. cbn [resetStats start]. rewrite Q1. repeat f_equal; lia.
  - exfalso. inversion Fn; subst. cbn [snd] in *. lia.
Qed.
Print Assumptions C115_whole.

(** In general memory is lost: after the history of [C30_coalesce_refuted] with one more
    request, the reset succeeds, nothing is handed out any more, and less than half of
    the region is left; a request for half of it fails. *)
Theorem C115_whole_refuted : exists s0 s ans s1 s2,
  reserve (makeBFC 256) 65536 4096 = Some s0 /\ run s0 (refutCalls ++ [Alloc 1024]) = Some (s, ans) /\
  resetAllocator s (map fst (used s)) = Some s1 /\ used s1 = [] /\ sizes (freeBlocks s1) = 1792 /\
  alloc s1 2048 = Some (s2, OutOfMemory).
Proof.
  do 5 eexists. split; [reflexivity|]. split; [vm_compute; reflexivity|]. split; [vm_compute; reflexivity|].
  split; [reflexivity|]. split; vm_compute; reflexivity.
Qed.
Print Assumptions C115_whole_refuted.

(** A reset does not wait for anybody: a block whose holder never released it is handed
    out again at the next request. *)
Theorem C115_still_held_refuted : exists s0 s ans s1 s2 ans2,
  reserve (makeBFC 256) 65536 4096 = Some s0 /\ run s0 [Alloc 100; Alloc 300] = Some (s, ans) /\
  held [] [Alloc 100; Alloc 300] ans = [(65536 + 256, 300); (65536, 100)] /\
  resetAllocator s [0; 256] = Some s1 /\ run s1 [Alloc 400] = Some (s2, ans2) /\ ans2 = [Address 65536].
Proof.
  do 6 eexists. split; [reflexivity|]. split; [vm_compute; reflexivity|]. split; [reflexivity|]. split; [vm_compute; reflexivity|]. split; vm_compute; reflexivity.
Qed.
Print Assumptions C115_still_held_refuted.

(** Two blocks handed out and a hole between them; read in another order than they were
    asked for, the reset gives the region back as one block. *)
Example C115_ex : exists s0 s ans s1, reserve (makeBFC 256) 65536 4096 = Some s0 /\
  run s0 [Alloc 100; Alloc 300; Free 65536; Alloc 20] = Some (s, ans) /\ Permutation [256; 768] (map fst (used s)) /\
  resetAllocator s [256; 768] = Some s1 /\ freeBlocks s1 = [(0, 4096)] /\
  calmRun s0 ([Alloc 100; Alloc 300; Free 65536; Alloc 20] ++ map (fun k => Free (k + 65536)) [256; 768]).
Proof.
  do 4 eexists. split; [reflexivity|]. split; [vm_compute; reflexivity|]. split; [vm_compute; apply perm_swap|]. split; [vm_compute; reflexivity|]. split; [vm_compute; reflexivity|].
  cbn [map app calmRun].
  Ltac served := intros _ F; exfalso;
    match type of F with Forall _ ?l => let l' := eval vm_compute in l in change l with l' in F end;
    rewrite Forall_forall in F;
    match type of F with forall x, In x ?l -> _ => let y := eval vm_compute in (List.last l (0, 0)) in specialize (F y) end;
    cbn [In snd] in F; match type of F with ?P -> _ => assert (X : P) by tauto; specialize (F X) end;
    vm_compute in F; discriminate.
  Ltac nomerge := intros z s1 E1 E2 T; vm_compute in E1; injection E1 as <-; vm_compute in E2; injection E2 as <-; vm_compute in T; discriminate.
  Ltac nxt := let s1 := fresh "s" in let r1 := fresh "r" in let R1 := fresh "R" in intros s1 r1 R1; vm_compute in R1; injection R1 as <- <-.
  split; [served|]. nxt. split; [served|]. nxt. split; [nomerge|]. nxt. split; [served|]. nxt. split; [nomerge|]. nxt.
  split; [|auto]. intros z s1 E1 E2 T. vm_compute in E1. injection E1 as <-. vm_compute in E2. injection E2 as <-.
  match goal with |- calm ?b ?l => let l' := eval vm_compute in l in change (calm b l') end.
  intros l1 x y l2 E _ _ k1 u v k2 E'.
  match type of E with ?L = _ => assert (H : forall l1 x y l2, L = l1 ++ x :: y :: l2 -> fst x + snd x = fst y) end.
  { clear. intros l1 x y l2 E. do 10 (destruct l1 as [|? l1]; [cbn [app] in E; inversion E; subst; reflexivity|cbn [app] in E; try discriminate E; injection E as _ E; try (destruct l1; discriminate E)]). }
  apply (H (l1 ++ x :: k1) u v k2). rewrite E, E', <- app_assoc. reflexivity.
Qed.
