(** Proofs about AdamW: what its Step writes, and that it runs to the end. *)
From Coq Require Import Reals List Bool Arith Lia Lra.
From Verif Require Import SolverModel SolverSpec SolverProofs SolverLoops.
Import ListNotations.

(** ** What is written: only pointers in [W] and pointers made after [N]. *)
Section Frame.
Variable N : nat.
Variable W : nat -> Prop.
Definition free (p : nat) : Prop := W p \/ (N <= p)%nat.
Definition keeps (h h' : heap) : Prop := (nextp h <= nextp h')%nat /\ forall q, (q < N)%nat -> ~ W q -> cells h' q = cells h q.
Definition safe {A} (P : A -> Prop) (m : heap -> res A) : Prop :=
  forall h, (N <= nextp h)%nat -> match m h with Ok a h' => keeps h h' /\ P a | Err h' => keeps h h' | Panic => True end.
Lemma keeps_refl h : keeps h h. Proof. split; auto. Qed.
Lemma keeps_trans h1 h2 h3 : keeps h1 h2 -> keeps h2 h3 -> keeps h1 h3.
Proof. intros [A B] [C D]. split; [lia|]. intros q Hq Nq. rewrite D, B; auto. Qed.
Lemma safe_bind {A B} (P : A -> Prop) (Q : B -> Prop) m k : safe P m -> (forall a, P a -> safe Q (k a)) -> safe Q (bind m k).
Proof.
  intros Hm Hk h Hh. unfold bind. specialize (Hm h Hh). destruct (m h) as [a h1|h1|]; auto. destruct Hm as [K1 Pa]. specialize (Hk a Pa h1). 
  assert (N <= nextp h1)%nat by (destruct K1; lia). specialize (Hk H). destruct (k a h1) as [b h2|h2|]; auto; [destruct Hk; split; auto|]; eapply keeps_trans; eauto.
Qed.
Lemma safe_ret {A} (P : A -> Prop) a : P a -> safe P (ret a).
Proof. intros HP h _. cbn [ret]. split; [apply keeps_refl|exact HP]. Qed.
Lemma safe_dense p : safe (fun _ => True) (dense p).
Proof. intros h _. unfold dense. destruct (cells h p) as [[|l]|]; auto. split; [apply keeps_refl|exact I]. Qed.
Lemma safe_new c : safe free (new c).
Proof. intros h Hh. cbn [new]. split; [|right; exact Hh]. split; [ne|]. intros q Hq _. look. reflexivity. Qed.
Lemma safe_write p c : free p -> safe (fun _ => True) (write p c).
Proof. intros [Hp|Hp] h Hh; cbn [write]; (split; [|exact I]); (split; [ne|]); intros q Hq Nq; apply cs_ne; [intros ->; contradiction|lia]. Qed.
Definition mok (t : nat) (m : mode) : Prop := match m with Safe => True | Unsafe => free t | Incr p => free p | Reuse p => free p end.
Lemma safe_err {A} (P : A -> Prop) : safe P (fun h => Err h).
Proof. intros h _. apply keeps_refl. Qed.
Lemma safe_store t l m : mok t m -> safe free (store t l m).
Proof.
  intro H. destruct m as [| |p|p]; cbn [store mok] in *.
  - apply safe_new.
  - eapply safe_bind; [apply safe_write, H|]. intros _ _. apply safe_ret, H.
  - eapply safe_bind; [apply safe_dense|]. intros old _. destruct (_ =? _)%nat; [|apply safe_err]. eapply safe_bind; [apply safe_write, H|]. intros _ _. apply safe_ret, H.
  - eapply safe_bind; [apply safe_dense|]. intros old _. destruct (_ =? _)%nat; [|apply safe_err]. eapply safe_bind; [apply safe_write, H|]. intros _ _. apply safe_ret, H.
Qed.
Lemma safe_op1 f t m : mok t m -> safe free (op1 f t m).
Proof. intro H. unfold op1. eapply safe_bind; [apply safe_dense|]. intros l _. apply safe_store, H. Qed.
Lemma safe_op2 f a b m : mok a m -> safe free (op2 f a b m).
Proof. intro H. unfold op2. eapply safe_bind; [apply safe_dense|]. intros x _. eapply safe_bind; [apply safe_dense|]. intros y _. destruct (_ =? _)%nat; [|apply safe_err]. apply safe_store, H. Qed.
Lemma safe_zero t : free t -> safe (fun _ => True) (zeroT t).
Proof. intro H. unfold zeroT. eapply safe_bind; [apply safe_dense|]. intros l _. apply safe_write, H. Qed.

Definition stok (st : nat * nat * nat) : Prop := let '(a, b, c) := st in free a /\ free b /\ free c.
Lemma adamwNode_safe p it w g st : free g -> stok st -> safe (fun _ => True) (adamwNode p it w g st).
Proof.
  intros Hg Hst. destruct st as [[a b] c]. destruct Hst as [Ha [Hb Hc]]. unfold adamwNode.
  eapply safe_bind with (P := free). { destruct (useL1Reg p); [|apply safe_ret, Hg]. unfold doL1Reg. eapply safe_bind; [apply safe_op1; exact I|]. intros x _. apply safe_op1, Hg. } intros _ _.
  eapply safe_bind with (P := free). { destruct (useL2Reg p); [|apply safe_ret, Hg]. apply safe_op1, Hg. } intros _ _.
  eapply safe_bind with (P := free). { destruct (Rltb 1 (batch p)); [|apply safe_ret, Hg]. apply safe_op1, Hg. } intros _ _.
  eapply safe_bind with (P := free). { destruct (useClip p && Rltb 0 (clip p)); [|apply safe_ret, Hg]. apply safe_op1, Hg. } intros _ _.
  eapply safe_bind; [apply safe_op1; exact I|]. intros w' Hw'.
  eapply safe_bind; [apply safe_op1, Ha|]. intros a' Ha'. eapply safe_bind; [apply safe_op1, Ha'|]. intros _ _.
  eapply safe_bind; [apply safe_op1, Hb|]. intros b' Hb'. eapply safe_bind; [apply safe_op2, Hg|]. intros g2 Hg2. eapply safe_bind; [apply safe_op1, Hb'|]. intros _ _.
  eapply safe_bind; [apply safe_op1, Hc|]. intros d1 H1. eapply safe_bind; [apply safe_op1, H1|]. intros d2 H2. eapply safe_bind; [apply safe_op1, H2|]. intros d3 H3.
  eapply safe_bind; [apply safe_op2, H3|]. intros d4 H4. eapply safe_bind; [apply safe_op1, Hw'|]. intros _ _. apply safe_zero, Hg.
Qed.

Lemma findState_ok sts k st : Forall (fun x => stok (snd x)) sts -> findState sts k = Some st -> stok st.
Proof. induction 1 as [|[k' v] sts Hv _ IH]; cbn [findState]; [discriminate|]. destruct (k =? k')%nat; [|exact IH]. intro E. injection E as <-. exact Hv. Qed.

Lemma adamwLoop_safe p it : forall model sts h, (N <= nextp h)%nat -> Forall (fun n => forall g, grad n = Some g -> free g) model -> Forall (fun x => stok (snd x)) sts ->
  match adamwLoop p it model sts h with Done s h' => keeps h h' /\ Forall (fun x => stok (snd x)) s | Fail s h' => keeps h h' /\ Forall (fun x => stok (snd x)) s | Crash => True end.
Proof.
  induction model as [|n model IH]; intros sts h Hh HG HS; cbn [adamwLoop].
  - split; [apply keeps_refl|exact HS].
  - inversion_clear HG as [|? ? HG1 HG2]. unfold extractWeightGrad. destruct (grad n) as [g|] eqn:Eg; cbn [ret]; [|split; [apply keeps_refl|exact HS]].
    specialize (HG1 g eq_refl). unfold bind at 1. unfold dense at 1. destruct (cells h (weights n)) as [[|lw]|]; auto. unfold dense. destruct (cells h g) as [[|gl]|]; auto.
    assert (S1 : exists st sts' h3, stateOf sts n gl h = Ok (st, sts') h3 /\ keeps h h3 /\ stok st /\ Forall (fun x => stok (snd x)) sts').
    { unfold stateOf. cbv zeta. destruct (findState sts (nid n)) as [st|] eqn:Ef.
      - exists st, sts, h. split; [reflexivity|]. split; [apply keeps_refl|]. split; [eapply findState_ok; eauto|exact HS].
      - do 3 rewrite new_b. eexists _, _, _. split; [reflexivity|].
        split; [split; [ne|]; intros q Hq _; look; reflexivity|]. assert (T : stok (nextp h, nextp (allocate h (Dn (map (fun _ => 0%R) gl))), nextp (allocate (allocate h (Dn (map (fun _ => 0%R) gl))) (Dn (map (fun _ => 0%R) gl))))).
        { nx. cbn [stok]. unfold free. repeat split; right; lia. }
        split; [exact T|]. constructor; [exact T|exact HS]. }
    destruct S1 as [st [sts' [h3 [E3 [K3 [T3 F3]]]]]]. rewrite E3.
    assert (Hh3 : (N <= nextp h3)%nat) by (destruct K3; lia). pose proof (adamwNode_safe p it (weights n) g st HG1 T3 h3 Hh3) as S4.
    destruct (adamwNode p it (weights n) g st h3) as [u h4|h4|]; auto.
    + destruct S4 as [K4 _]. assert (Hh4 : (N <= nextp h4)%nat) by (destruct K4; lia). specialize (IH sts' h4 Hh4 HG2 F3).
      destruct (adamwLoop p it model sts' h4) as [s5 h5|s5 h5|]; auto; destruct IH as [K5 F5]; (split; [|exact F5]); (eapply keeps_trans; [exact K3|eapply keeps_trans; eauto]).
    + split; [eapply keeps_trans; eauto|exact F3].
Qed.

Lemma feed_keeps r : forall model i h, Forall (fun n => forall g, grad n = Some g -> free g) model -> keeps h (feed model i r h).
Proof.
  induction model as [|n model IH]; intros i h H; cbn [feed]; [apply keeps_refl|]. inversion_clear H as [|? ? H1 H2]. eapply keeps_trans; [|apply IH, H2].
  destruct (grad n) as [g|]; [|apply keeps_refl]. split; [ne|]. intros q Hq Nq. apply cs_ne. intros ->. destruct (H1 g eq_refl); [contradiction|lia].
Qed.

Lemma adamwRounds_safe p model : Forall (fun n => forall g, grad n = Some g -> free g) model -> forall rs s h, (N <= nextp h)%nat -> Forall (fun x => stok (snd x)) (snd s) ->
  match rounds (adamwStep p) model rs s h with Done _ h' => keeps h h' | Fail _ h' => keeps h h' | Crash => True end.
Proof.
  intro HG. induction rs as [|r rs IH]; intros s h Hh HS; cbn [rounds]; [apply keeps_refl|].
  pose proof (feed_keeps r model 0 h HG) as KF. assert (Hf : (N <= nextp (feed model 0 r h))%nat) by (destruct KF; lia).
  pose proof (adamwLoop_safe p (S (fst s)) model (snd s) _ Hf HG HS) as KL. assert (ES : adamwStep p model s (feed model 0 r h) = match adamwLoop p (S (fst s)) model (snd s) (feed model 0 r h) with Done c h' => Done (S (fst s), c) h' | Fail c h' => Fail (S (fst s), c) h' | Crash => Crash end) by reflexivity. rewrite ES. clear ES.
  destruct (adamwLoop p (S (fst s)) model (snd s) (feed model 0 r h)) as [c h1|c h1|]; auto.
  - destruct KL as [K1 F1]. assert (H1 : (N <= nextp h1)%nat) by (destruct K1; lia). specialize (IH (S (fst s), c) h1 H1 F1).
    destruct (rounds (adamwStep p) model rs (S (fst s), c) h1); auto; (eapply keeps_trans; [exact KF|eapply keeps_trans; eauto]).
  - destruct KL as [K1 _]. eapply keeps_trans; eauto.
Qed.
End Frame.

(** ** It runs to the end: no operation changes the size of a tensor. *)
Definition sh (h : heap) (p n : nat) : Prop := exists l, cells h p = Some (Dn l) /\ length l = n.
Definition grows (h h' : heap) : Prop := (nextp h <= nextp h')%nat /\ forall p n, (p < nextp h)%nat -> sh h p n -> sh h' p n.
Definition ptr (h : heap) (p n : nat) : Prop := (p < nextp h)%nat /\ sh h p n.
Lemma grows_refl h : grows h h. Proof. split; auto. Qed.
Lemma grows_trans a b c : grows a b -> grows b c -> grows a c.
Proof. intros [A B] [C D]. split; [lia|]. intros p n Hp Hs. apply D; [lia|]. apply B; auto. Qed.
Lemma grows_ptr h h' p n : grows h h' -> ptr h p n -> ptr h' p n.
Proof. intros [A B] [C D]. split; [lia|auto]. Qed.
Lemma grows_set h p l n : ptr h p n -> length l = n -> grows h (set h p (Dn l)).
Proof.
  intros [Hp [l0 [E L]]] Hl. split; [ne|]. intros q m Hq Hs. destruct (Nat.eq_dec q p) as [->|Nq].
  - destruct Hs as [l1 [E1 L1]]. rewrite E in E1. injection E1 as ->. exists l. rewrite cs_eq. split; [reflexivity|congruence].
  - destruct Hs as [l1 [E1 L1]]. exists l1. rewrite cs_ne by exact Nq. auto.
Qed.
Lemma grows_new h l : grows h (allocate h (Dn l)).
Proof. split; [ne|]. intros q m Hq [l1 [E1 L1]]. exists l1. look. auto. Qed.
Lemma ptr_set h p l n : ptr h p n -> length l = n -> ptr (set h p (Dn l)) p n.
Proof. intros H L. apply (grows_ptr h); [|exact H]. eapply grows_set; eauto. Qed.
Definition mptr (h : heap) (t : nat) (m : mode) (n : nat) : Prop := match m with Safe => True | Unsafe => ptr h t n | Incr p => ptr h p n | Reuse p => ptr h p n end.
Lemma store_runs h t l m n : length l = n -> mptr h t m n -> exists q h', store t l m h = Ok q h' /\ grows h h' /\ ptr h' q n.
Proof.
  intros L H. destruct m as [| |p|p]; cbn [store mptr] in *.
  - eexists _, _. split; [reflexivity|]. split; [apply grows_new|]. split; [ne|]. exists l. split; [find|exact L].
  - eexists _, _. rewrite write_b. split; [reflexivity|]. split; [eapply grows_set; eauto|apply ptr_set; auto].
  - pose proof H as [Hp [o [E Lo]]]. rewrite (dense_b _ _ _ _ E). rewrite Lo, L, Nat.eqb_refl, write_b. eexists _, _. split; [reflexivity|].
    assert (Lm : length (map2 Rplus o l) = n) by len. split; [eapply grows_set; eauto|apply ptr_set; auto].
  - pose proof H as [Hp [o [E Lo]]]. rewrite (dense_b _ _ _ _ E). rewrite Lo, L, Nat.eqb_refl, write_b. eexists _, _. split; [reflexivity|].
    split; [eapply grows_set; eauto|apply ptr_set; auto].
Qed.
Lemma op1_runs h f t m n : ptr h t n -> mptr h t m n -> exists q h', op1 f t m h = Ok q h' /\ grows h h' /\ ptr h' q n.
Proof. intros [Ht [l [E L]]] Hm. unfold op1. rewrite (dense_b _ _ _ _ E). apply store_runs; [rewrite map_length; exact L|exact Hm]. Qed.
Lemma op2_runs h f a b m n : ptr h a n -> ptr h b n -> mptr h a m n -> exists q h', op2 f a b m h = Ok q h' /\ grows h h' /\ ptr h' q n.
Proof.
  intros [Ha [la [Ea La]]] [Hb [lb [Eb Lb]]] Hm. unfold op2. rewrite (dense_b _ _ _ _ Ea), (dense_b _ _ _ _ Eb), La, Lb, Nat.eqb_refl. apply store_runs; [len|exact Hm].
Qed.
(** The result of an operation in place is its operand. *)
Lemma op1_unsafe_same f t h q h' : op1 f t Unsafe h = Ok q h' -> q = t.
Proof. unfold op1, bind, dense. destruct (cells h t) as [[|l]|]; try discriminate. cbn [store]. rewrite write_b. unfold ret. intro E. injection E as <- <-. reflexivity. Qed.

Ltac carry := repeat match goal with
  | G : grows ?h ?h', H : ptr ?h ?p ?n |- _ => lazymatch goal with K : ptr h' p n |- _ => fail | _ => pose proof (grows_ptr _ _ _ _ G H) end end.
Lemma adamwNode_runs p it w g a b c n h : ptr h w n -> ptr h g n -> ptr h a n -> ptr h b n -> ptr h c n ->
  exists h', adamwNode p it w g (a, b, c) h = Ok tt h' /\ grows h h' /\ exists l, cells h' g = Some (Dn l) /\ length l = n /\ Forall (fun x => x = 0%R) l.
Proof.
  intros Hw Hg Ha Hb Hc. unfold adamwNode.
  assert (S1 : exists q h1, (if useL1Reg p then doL1Reg p w g else ret g) h = Ok q h1 /\ grows h h1).
  { destruct (useL1Reg p); [|eexists _, _; split; [reflexivity|apply grows_refl]]. unfold doL1Reg. destruct (op1_runs h signT w Safe n Hw I) as [q [h1 [E1 [G1 P1]]]]. rewrite (bind_ok _ _ _ _ _ E1). carry.
    destruct (op1_runs h1 (fun x => l1reg p * x)%R q (Incr g) n P1) as [q2 [h2 [E2 [G2 P2]]]]; [cbn [mptr]; assumption|]. rewrite E2. eexists _, _. split; [reflexivity|]. eapply grows_trans; eauto. }
  destruct S1 as [q1 [h1 [E1 G1]]]. rewrite (bind_ok _ _ _ _ _ E1). carry. clear Hw Hg Ha Hb Hc.
  assert (S2 : exists q h2, (if useL2Reg p then doL2Reg p w g else ret g) h1 = Ok q h2 /\ grows h1 h2).
  { destruct (useL2Reg p); [|eexists _, _; split; [reflexivity|apply grows_refl]]. unfold doL2Reg. destruct (op1_runs h1 (fun x => x * l2reg p)%R w (Incr g) n) as [q2 [h2 [E2 [G2 P2]]]]; [assumption|cbn [mptr]; assumption|]. eauto. }
  destruct S2 as [q2 [h2 [E2 G2]]]. rewrite (bind_ok _ _ _ _ _ E2). carry.
  assert (S3 : exists q h3, (if Rltb 1 (batch p) then divBatch p g else ret g) h2 = Ok q h3 /\ grows h2 h3).
  { destruct (Rltb 1 (batch p)); [|eexists _, _; split; [reflexivity|apply grows_refl]]. unfold divBatch. destruct (op1_runs h2 (fun x => x * (1 / batch p))%R g Unsafe n) as [q3 [h3 [E3 [G3 P3]]]]; [assumption|cbn [mptr]; assumption|]. eauto. }
  destruct S3 as [q3 [h3 [E3 G3]]]. rewrite (bind_ok _ _ _ _ _ E3). carry.
  assert (S4 : exists q h4, (if useClip p && Rltb 0 (clip p) then clipGrad p g else ret g) h3 = Ok q h4 /\ grows h3 h4).
  { destruct (useClip p && Rltb 0 (clip p)); [|eexists _, _; split; [reflexivity|apply grows_refl]]. unfold clipGrad. destruct (op1_runs h3 (clamp (- clip p) (clip p)) g Unsafe n) as [q4 [h4 [E4 [G4 P4]]]]; [assumption|cbn [mptr]; assumption|]. eauto. }
  destruct S4 as [q4 [h4 [E4 G4]]]. rewrite (bind_ok _ _ _ _ _ E4). carry.
  assert (GG : grows h h4) by (repeat (eapply grows_trans; [eassumption|]); apply grows_refl).
  repeat match goal with H : ptr ?x _ _ |- _ => tryif constr_eq x h4 then fail else clear H end. clear G1 G2 G3 G4 E1 E2 E3 E4.
  Ltac run1 := match goal with |- context [bind (op1 ?f ?t ?m) _ ?h] =>
      let q := fresh "q" in let h1 := fresh "h" in let E := fresh "E" in let G := fresh "G" in let P := fresh "P" in
      edestruct (op1_runs h f t m) as [q [h1 [E [G P]]]]; [eassumption|cbn [mptr]; first [exact I | eassumption]|]; rewrite (bind_ok _ _ _ _ _ E); carry;
      match goal with GG : grows ?a h, G1 : grows h h1 |- _ => pose proof (grows_trans _ _ _ GG G1); clear GG end;
      repeat match goal with H : ptr h _ _ |- _ => clear H end; clear E G
    | |- context [bind (op2 ?f ?t ?u ?m) _ ?h] =>
      let q := fresh "q" in let h1 := fresh "h" in let E := fresh "E" in let G := fresh "G" in let P := fresh "P" in
      edestruct (op2_runs h f t u m) as [q [h1 [E [G P]]]]; [eassumption|eassumption|cbn [mptr]; first [exact I | eassumption]|]; rewrite (bind_ok _ _ _ _ _ E); carry;
      match goal with GG : grows ?a h, G1 : grows h h1 |- _ => pose proof (grows_trans _ _ _ GG G1); clear GG end;
      repeat match goal with H : ptr h _ _ |- _ => clear H end; clear E G end.
  do 11 run1.
  match goal with H : ptr ?hh g n |- context [zeroT g ?hh] => destruct H as [Hl [l [El Ll]]]; rewrite (zero_ok _ _ _ El); eexists; split; [reflexivity|]; split end.
  - eapply grows_trans; [eassumption|]. eapply grows_set; [split; [exact Hl|exists l; split; [exact El|reflexivity]]|]. rewrite map_length. reflexivity.
  - eexists. rewrite cs_eq. split; [reflexivity|]. rewrite map_length. split; [exact Ll|]. rewrite Forall_map. apply Forall_forall. reflexivity.
Qed.

Definition no : nat -> Prop := fun _ => False.
Section Run.
Variable N : nat.
Variable sz : node -> nat.
Variable M : list node.
Definition ready (sts : adamwStates) (h : heap) : Prop :=
  (N <= nextp h)%nat /\ Forall (fun x => stok N no (snd x)) sts /\
  forall m, In m M -> exists g, grad m = Some g /\ (g < N)%nat /\ ptr h (weights m) (sz m) /\ ptr h g (sz m) /\
    forall a b c, findState sts (nid m) = Some (a, b, c) -> ptr h a (sz m) /\ ptr h b (sz m) /\ ptr h c (sz m).
Hypothesis distinct : forall m m', In m M -> In m' M -> nid m = nid m' -> m = m'.

Lemma ready_grows sts h h' : ready sts h -> grows h h' -> ready sts h'.
Proof.
  intros [A [B C]] G. split; [destruct G; lia|]. split; [exact B|]. intros m Hm. destruct (C m Hm) as [g [C1 [C2 [C3 [C4 C5]]]]]. exists g. split; [exact C1|]. split; [exact C2|]. split; [eapply grows_ptr; eauto|]. split; [eapply grows_ptr; eauto|].
  intros a b c E. destruct (C5 a b c E) as [P1 [P2 P3]]. split; [|split]; eapply grows_ptr; eauto.
Qed.

Lemma stok_weaken W st : stok N no st -> stok N W st.
Proof. destruct st as [[a b] c]. unfold stok, free, no. intuition. Qed.

Lemma stateOf_runs sts n gl h : ready sts h -> In n M -> length gl = sz n ->
  exists a b c sts' h', stateOf sts n gl h = Ok ((a, b, c), sts') h' /\ grows h h' /\ ready sts' h' /\ ptr h' a (sz n) /\ ptr h' b (sz n) /\ ptr h' c (sz n) /\
    stok N no (a, b, c).
Proof.
  intros R Hn Hl. pose proof R as [A [B C]]. unfold stateOf. cbv zeta. destruct (findState sts (nid n)) as [[[a b] c]|] eqn:E.
  - exists a, b, c, sts, h. destruct (C n Hn) as [g [_ [_ [_ [_ C5]]]]]. destruct (C5 a b c E) as [P1 [P2 P3]]. split; [reflexivity|]. split; [apply grows_refl|]. split; [exact R|]. split; [exact P1|]. split; [exact P2|]. split; [exact P3|]. eapply findState_ok; eauto.
  - set (z := Dn (map (fun _ => 0%R) gl)). rewrite !new_b. set (h1 := allocate h z). set (h2 := allocate h1 z). set (h3 := allocate h2 z).
    assert (G1 : grows h h1) by apply grows_new. assert (G2 : grows h1 h2) by apply grows_new. assert (G3 : grows h2 h3) by apply grows_new.
    assert (G : grows h h3) by exact (grows_trans _ _ _ G1 (grows_trans _ _ _ G2 G3)).
    assert (Pz : forall q h0, q = nextp h0 -> ptr (allocate h0 z) q (sz n)) by (intros q h0 ->; split; [ne|]; eexists; split; [apply ca_eq; reflexivity|rewrite map_length; exact Hl]).
    assert (P1 : ptr h3 (nextp h) (sz n)) by (apply (grows_ptr h1); [exact (grows_trans _ _ _ G2 G3)|apply Pz; reflexivity]).
    assert (P2 : ptr h3 (nextp h1) (sz n)) by (apply (grows_ptr h2); [exact G3|apply Pz; reflexivity]).
    assert (P3 : ptr h3 (nextp h2) (sz n)) by (apply Pz; reflexivity).
    assert (T : stok N no (nextp h, nextp h1, nextp h2)) by (unfold h2, h1; nx; unfold stok, free; repeat split; right; lia).
    exists (nextp h), (nextp h1), (nextp h2), ((nid n, (nextp h, nextp h1, nextp h2)) :: sts), h3. split; [reflexivity|]. split; [exact G|]. split; [|auto].
    destruct (ready_grows sts h h3 R G) as [A' [B' C']]. split; [exact A'|]. split; [constructor; [exact T|exact B']|].
    intros m Hm. destruct (C' m Hm) as [g [C1 [C2 [C3 [C4 C5]]]]]. exists g. repeat (split; [assumption|]). intros a b c. cbn [findState]. destruct (Nat.eqb_spec (nid m) (nid n)) as [En|En].
    + rewrite (distinct m n Hm Hn En) in *. intro E'. injection E' as <- <- <-. auto.
    + apply C5.
Qed.

Lemma adamwLoop_runs p it : forall rest sts h, (forall m, In m rest -> In m M) -> NoDup (map grad rest) -> ready sts h ->
  exists sts' h', adamwLoop p it rest sts h = Done sts' h' /\ ready sts' h' /\
    forall m g, In m rest -> grad m = Some g -> exists l, cells h' g = Some (Dn l) /\ length l = sz m /\ Forall (fun x => x = 0%R) l.
Proof.
  induction rest as [|n rest IH]; intros sts h Sub ND R; cbn [adamwLoop].
  - exists sts, h. split; [reflexivity|]. split; [exact R|]. intros m g [].
  - pose proof (Sub n (or_introl eq_refl)) as Hn. pose proof R as [A [B C]]. destruct (C n Hn) as [g [C1 [C2 [C3 [C4 C5]]]]]. unfold extractWeightGrad. rewrite C1. cbn [ret].
    destruct C3 as [_ [lw [Ew Lw]]]. destruct C4 as [Pg [lg [Eg Lg]]]. rewrite (dense_b _ _ _ _ Ew). unfold dense. rewrite Eg.
    destruct (stateOf_runs sts n lg h R Hn Lg) as [a [b [c [sts1 [h1 [E1 [G1 [R1 [P1 [P2 [P3 T1]]]]]]]]]]]. rewrite E1.
    pose proof R1 as [A1 [B1 C1']]. destruct (C1' n Hn) as [g' [D1 [D2 [D3 [D4 _]]]]]. rewrite C1 in D1. injection D1 as <-.
    destruct (adamwNode_runs p it (weights n) g a b c (sz n) h1 D3 D4 P1 P2 P3) as [h2 [E2 [G2 Z2]]]. rewrite E2.
    pose proof (ready_grows sts1 h1 h2 R1 G2) as R2. inversion_clear ND as [|? ? N1 N2].
    destruct (IH sts1 h2 (fun m Hm => Sub m (or_intror Hm)) N2 R2) as [sts3 [h3 [E3 [R3 Z3]]]]. exists sts3, h3. split; [exact E3|]. split; [exact R3|].
    intros m g0 [<-|Hm] Hg; [|apply (Z3 m g0 Hm Hg)]. rewrite C1 in Hg. injection Hg as <-.
    pose proof (adamwLoop_safe N (fun q => exists m, In m rest /\ grad m = Some q) p it rest sts1 h2 (proj1 R2)) as K.
    rewrite E3 in K. destruct K as [[_ K] _].
    + apply Forall_forall. intros m Hm q Hq. left. eauto.
    + destruct R2 as [_ [B2 _]]. eapply Forall_impl; [|exact B2]. intros x. apply stok_weaken.
    + rewrite K; [exact Z2|exact C2|]. intros [m [Hm Hq]]. apply N1. rewrite C1, <- Hq. apply in_map, Hm.
Qed.

Lemma feed_grows r : forall rest i h, (forall j m, nth_error rest j = Some m -> exists g l, grad m = Some g /\ ptr h g (sz m) /\ r (i + j)%nat = Dn l /\ length l = sz m) -> grows h (feed rest i r h).
Proof.
  induction rest as [|n rest IH]; intros i h H; cbn [feed]; [apply grows_refl|].
  destruct (H 0%nat n eq_refl) as [g [l [H1 [H2 [H3 H4]]]]]. rewrite H1. rewrite Nat.add_0_r in H3. rewrite H3.
  assert (G : grows h (set h g (Dn l))) by (eapply grows_set; eauto). eapply grows_trans; [exact G|]. apply IH. intros j m Hj.
  destruct (H (S j) m Hj) as [g' [l' [H1' [H2' [H3' H4']]]]]. exists g', l'. rewrite Nat.add_succ_r in H3'. repeat split; auto; eapply grows_ptr; eauto.
Qed.

Lemma adamwRounds_runs p : NoDup (map grad M) -> forall rs s h, ready (snd s) h -> Forall (fun rd => forall i m, nth_error M i = Some m -> exists l, rd i = Dn l /\ length l = sz m) rs ->
  exists s' h', rounds (adamwStep p) M rs s h = Done s' h' /\ (rs <> [] -> forall m g, In m M -> grad m = Some g -> exists l, cells h' g = Some (Dn l) /\ length l = sz m /\ Forall (fun x => x = 0%R) l).
Proof.
  intro ND. induction rs as [|rd rs IH]; intros s h R H; cbn [rounds].
  - eexists _, _. split; [reflexivity|]. intro; contradiction.
  - inversion_clear H as [|? ? H1 H2].
    assert (G : grows h (feed M 0 rd h)).
    { apply feed_grows. intros j m Hj. destruct R as [_ [_ C]]. destruct (C m (nth_error_In _ _ Hj)) as [g [C1 [_ [_ [C4 _]]]]]. destruct (H1 j m Hj) as [l [E L]]. exists g, l. auto. }
    destruct (adamwLoop_runs p (S (fst s)) M (snd s) _ (fun m Hm => Hm) ND (ready_grows _ _ _ R G)) as [sts1 [h1 [E1 [R1 Z1]]]].
    assert (ES : adamwStep p M s (feed M 0 rd h) = Done (S (fst s), sts1) h1) by (unfold adamwStep; rewrite E1; reflexivity). rewrite ES.
    destruct (IH (S (fst s), sts1) h1 R1 H2) as [s2 [h2 [E2 Z2]]]. exists s2, h2. split; [exact E2|]. intros _. destruct rs as [|rd2 rs]; [|apply Z2; discriminate].
    cbn [rounds] in E2. injection E2 as <- <-. exact Z1.
Qed.
End Run.
