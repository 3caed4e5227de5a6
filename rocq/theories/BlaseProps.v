(** C38: batched BLAS calls. *)
From Coq Require Import List Arith ZArith Bool Lia.
From Verif Require Import BlaseModel BlaseSpec.
Import ListNotations.

Section Props.
Context {A : Type}.
Variable grow : nat -> nat.
Notation st := (@st A).
Notation call := (@call A).
Notation fire := (fire grow).
Notation run := (run grow).

Lemma run_app ls ls' (s : st) : run (ls ++ ls') s = match run ls s with Some s' => run ls' s' | None => None end.
Proof. revert s. induction ls as [|l ls IH]; intro s; [reflexivity|]. cbn [app BlaseModel.run]. destruct (fire l s); [apply IH|reflexivity]. Qed.
(** Whatever the interleaving of puts and work, no call is lost, repeated or reordered:
    what has run, what is in the queue and what is in the channel are the calls put. *)
Theorem C38_order ls (s : st) : run ls newContext = Some s -> ran s ++ queue s ++ work s = puts ls.
Proof.
  assert (G : forall ls (s0 s : st), run ls s0 = Some s -> ran s ++ queue s ++ work s = (ran s0 ++ queue s0 ++ work s0) ++ puts ls).
  { clear ls s. induction ls as [|l ls IH]; intros s0 s H; cbn [BlaseModel.run] in H; [injection H as <-; symmetry; apply app_nil_r|].
    destruct (fire l s0) as [s1|] eqn:E; [|discriminate]. rewrite (IH s1 s H). destruct s0 as [w q cp r a]. destruct l as [c| |]; cbn [BlaseModel.fire puts work queue ran cap at_] in *.
    - destruct (length w <? workbufLen); [|discriminate]. injection E as <-. cbn [work queue ran]. rewrite <- !app_assoc. reflexivity.
    - destruct a; try discriminate; injection E as <-; reflexivity.
    - f_equal. destruct a as [| |b|]; try discriminate.
      + destruct w as [|w ws]; injection E as <-; cbn [work queue ran]; [reflexivity|]. rewrite <- !app_assoc. reflexivity.
      + destruct ((length q <? cp) && negb b); [|injection E as <-; reflexivity]. destruct w as [|w ws]; [injection E as <-; reflexivity|]. destruct (workbufLen <? length (q ++ [w])); injection E as <-; cbn [work queue ran]; rewrite <- ?app_assoc; reflexivity. }
  intro H. exact (G ls newContext s H).
Qed.
(** Starting with an empty queue, or with one call left over, DoWork runs every call when
    it finds at least two that do not block. *)
Lemma inner_all ws (cp : nat) (r : list call) : 1 <= cp -> (forall c, In c ws -> blocking c = false) ->
  run (repeat Tick (length ws)) (St ws [] cp r (Inner false)) = Some (St [] [] cp (r ++ ws) (Inner false)).
Proof.
  intro Hc. revert r. induction ws as [|w ws IH]; intros r NB; [cbn; rewrite app_nil_r; reflexivity|].
  cbn [length repeat BlaseModel.run BlaseModel.fire at_ queue cap work app ran]. destruct (Nat.ltb_spec 0 cp); [|lia]. cbn [andb negb Nat.ltb Nat.leb workbufLen length].
  rewrite (NB w (or_introl eq_refl)). unfold capAfter. cbn [queue length cap]. destruct (Nat.ltb_spec 0 cp); [|lia]. rewrite IH by (intros; apply NB; right; assumption). rewrite <- app_assoc. reflexivity.
Qed.
Theorem C38_pair (s : st) : (at_ s = Outside \/ at_ s = Panicked) -> 3 <= cap s -> length (queue s) <= 1 -> 2 <= length (work s) -> (forall c, In c (work s) -> blocking c = false) ->
  exists s', doesWork grow s s' /\ at_ s' = Outside /\ ran s' = ran s ++ queue s ++ work s /\ queue s' = [] /\ work s' = [].
Proof.
  intros P C LQ LW NB. destruct s as [w q cp r a]. cbn [at_ cap queue work ran] in *. destruct w as [|w1 [|w2 ws]]; cbn [length] in LW; try lia.
  assert (N1 := NB w1 (or_introl eq_refl)). assert (N2 := NB w2 (or_intror (or_introl eq_refl))).
  exists (St [] [] cp (r ++ q ++ w1 :: w2 :: ws) Outside). repeat split; [left; reflexivity|].
  exists (2 + (length ws + 2)). rewrite repeat_app. cbn [repeat app BlaseModel.run].
  assert (S0 : fire Start (St (w1 :: w2 :: ws) q cp r a) = Some (St (w1 :: w2 :: ws) q cp r Outer)) by (destruct P as [->| ->]; reflexivity). rewrite S0.
  assert (S1 : fire Tick (St (w1 :: w2 :: ws) q cp r Outer) = Some (St (w2 :: ws) (q ++ [w1]) cp r (Inner false))).
  { cbn [BlaseModel.fire at_ work queue ran]. unfold capAfter. cbn [queue cap]. destruct (Nat.ltb_spec (length q) cp); [|lia]. rewrite N1. reflexivity. }
  rewrite S1.
  assert (S2 : fire Tick (St (w2 :: ws) (q ++ [w1]) cp r (Inner false)) = Some (St ws [] cp (r ++ q ++ [w1; w2]) (Inner false))).
  { cbn [BlaseModel.fire at_ work queue ran cap]. rewrite !app_length. cbn [length]. destruct (Nat.ltb_spec (length q + 1) cp); [|lia]. cbn [andb negb]. unfold workbufLen. destruct (Nat.ltb_spec 3 (length q + 1 + 1)); [lia|]. unfold capAfter. cbn [queue cap]. rewrite app_length. cbn [length]. destruct (Nat.ltb_spec (length q + 1) cp); [|lia]. rewrite N2, <- app_assoc. reflexivity. }
  rewrite S2. rewrite repeat_app, run_app, inner_all; [|lia|intros; apply NB; right; right; assumption].
  cbn [repeat BlaseModel.run BlaseModel.fire at_ work queue ran cap length]. destruct (Nat.ltb_spec 0 cp); [|lia]. cbn [andb negb BlaseModel.run BlaseModel.fire at_ work]. rewrite <- !app_assoc. reflexivity.
Qed.
(** When DoWork finds a single call it runs nothing: the call goes to the queue and stays. *)
Lemma ticks_end n (s : st) : at_ s = Outside \/ at_ s = Panicked -> forall s', run (repeat Tick n) s = Some s' -> s' = s.
Proof. intros P s' H. destruct n as [|n]; cbn [repeat BlaseModel.run] in H; [congruence|]. destruct s as [w q cp r a]. cbn [at_ BlaseModel.fire] in *. destruct P as [->| ->]; discriminate. Qed.
Theorem C38_lone_refuted (s s' : st) c : (at_ s = Outside \/ at_ s = Panicked) -> work s = [c] -> doesWork grow s s' ->
  ran s' = ran s /\ queue s' = queue s ++ [c] /\ work s' = [] /\ at_ s' = Outside.
Proof.
  intros P W [E [n H]]. destruct s as [w q cp r a]. cbn [at_ work ran queue] in *. subst w.
  assert (S0 : fire Start (St [c] q cp r a) = Some (St [c] q cp r Outer)) by (destruct P as [->| ->]; reflexivity). cbn [BlaseModel.run] in H. rewrite S0 in H.
  assert (Z : forall k (x : st), run (repeat Tick k) x = Some s' -> at_ x = Outer \/ (exists b, at_ x = Inner b) -> exists k', k = S k') by (intros [|k] x K Hx; [injection K as <-; exfalso; destruct Hx as [Hx|[b Hx]], E as [E|E]; congruence|exists k; reflexivity]).
  destruct (Z _ _ H (or_introl eq_refl)) as [n1 ->]. cbn [repeat BlaseModel.run BlaseModel.fire at_ work queue ran] in H.
  destruct (Z _ _ H (or_intror (ex_intro _ _ eq_refl))) as [n2 ->]. cbn [repeat BlaseModel.run BlaseModel.fire at_ work queue ran cap] in H.
  set (cp' := capAfter grow (St [c] q cp r Outer)) in H.
  assert (H' : run (repeat Tick n2) (St [] (q ++ [c]) cp' r Outer) = Some s') by (destruct ((length (q ++ [c]) <? cp') && negb (blocking c)); exact H). clear H.
  destruct (Z _ _ H' (or_introl eq_refl)) as [n3 ->]. cbn [repeat BlaseModel.run BlaseModel.fire at_ work queue ran cap] in H'.
  rewrite (ticks_end n3 (St [] (q ++ [c]) cp' r Outside) (or_introl eq_refl) s' H'). auto.
Qed.
(** So calls that come one at a time, with DoWork after each, never run, however many
    there are and whether or not they block. *)
Theorem C38_never_refuted cs (s : st) : rounds grow cs newContext s -> ran s = [] /\ queue s = cs.
Proof.
  intro H. assert (G : forall cs (s0 s : st), rounds grow cs s0 s -> (at_ s0 = Outside \/ at_ s0 = Panicked) -> work s0 = [] -> ran s = ran s0 /\ queue s = queue s0 ++ cs).
  { clear. intros cs s0 s H. induction H as [s|c cs s s1 s2 s3 HP HD HR IH]; intros P W; [split; [reflexivity|symmetry; apply app_nil_r]|].
    destruct s as [w q cp r a]. cbn [at_ work] in *. subst w. cbn in HP. injection HP as <-.
    destruct (C38_lone_refuted (St [c] q cp r a) s2 c P eq_refl HD) as [R [Q [W' A']]]. destruct (IH (or_introl A') W') as [R' Q']. cbn [ran queue] in *. split; [congruence|]. rewrite Q', Q, <- app_assoc. reflexivity. }
  apply (G cs newContext s H (or_introl eq_refl) eq_refl).
Qed.
(** Once two calls are left in the queue nothing runs ever again, whatever is put and
    however often DoWork is called. *)
Theorem C38_dead_refuted ls (s s' : st) : (at_ s = Outside \/ at_ s = Panicked) -> 2 <= length (queue s) -> run ls s = Some s' -> ran s' = ran s.
Proof.
  intros P L. assert (D : (at_ s <> Inner true /\ at_ s <> Inner false /\ 2 <= length (queue s)) \/ 3 <= length (queue s)) by (left; destruct P as [-> | ->]; repeat split; try discriminate; exact L). clear P L.
  revert s D. induction ls as [|l ls IH]; intros s D H; cbn [BlaseModel.run] in H; [congruence|]. destruct (fire l s) as [s1|] eqn:E; [|discriminate].
  assert (K : ran s1 = ran s /\ ((at_ s1 <> Inner true /\ at_ s1 <> Inner false /\ 2 <= length (queue s1)) \/ 3 <= length (queue s1))).
  { destruct s as [w q cp r a]. destruct l as [c| |]; cbn [BlaseModel.fire work queue ran cap at_] in *.
    - destruct (length w <? workbufLen); [|discriminate]. injection E as <-. cbn [ran at_ queue]. split; [reflexivity|exact D].
    - assert (2 <= length q) by lia. destruct a; try discriminate; injection E as <-; cbn [ran at_ queue]; (split; [reflexivity|left; repeat split; try discriminate; assumption]).
    - destruct a as [| |b|]; try discriminate.
      + destruct w as [|w ws]; injection E as <-; cbn [ran at_ queue]; (split; [reflexivity|]); [left; repeat split; try discriminate; lia|]. right. rewrite app_length. cbn [length]. lia.
      + assert (L3 : 3 <= length q) by (destruct D as [[D1 [D2 _]]|D]; [destruct b; congruence|exact D]).
        destruct ((length q <? cp) && negb b); [|injection E as <-; split; [reflexivity|right; exact L3]].
        destruct w as [|w ws]; [injection E as <-; split; [reflexivity|right; exact L3]|]. unfold workbufLen in E. rewrite app_length in E. cbn [length] in E. destruct (Nat.ltb_spec 3 (length q + 1)); [|lia]. injection E as <-. cbn [ran at_ queue]. split; [reflexivity|]. right. rewrite app_length. cbn [length]. lia. }
  destruct K as [K1 K2]. rewrite (IH s1 K2 H). exact K1.
Qed.
(** With two calls left, three more calls that do not block make DoWork panic, given that
    append leaves room for one more. *)
Theorem C38_panic_refuted (q1 q2 c1 c2 c3 : call) r : 4 < grow 4 -> blocking c2 = false ->
  exists s', doesWork grow (St [c1; c2; c3] [q1; q2] 3 r Outside) s' /\ at_ s' = Panicked /\ ran s' = r.
Proof.
  intros G B2. exists (St [] [q1; q2; c1; c2; c3] (grow 4) r Panicked). split; [|split; reflexivity]. split; [right; reflexivity|]. exists 4. destruct (grow 4) as [|[|[|[|[|k]]]]] eqn:GE; try lia. cbn. rewrite GE, B2. cbn. unfold capAfter. cbn. reflexivity.
Qed.
End Props.
(** Dgemv gives the number of rows for the number of columns as well: the call queued
    computes the product for every matrix and vector exactly if the matrix is square. *)
Theorem C38_dgemv m n lda : (forall a x i, i < i0 (dgemvArgs m n lda) -> mulVec (i1 (dgemvArgs m n lda)) (i2 (dgemvArgs m n lda)) a x i = mulVec n lda a x i) <-> m = 0 \/ m = n.
Proof.
  cbn [i0 i1 i2 dgemvArgs]. split.
  - intro H. destruct m as [|m]; [left; reflexivity|]. right. specialize (H (fun _ => 1%Z) (fun _ => 1%Z) 0 ltac:(lia)).
    assert (L : forall k b, fold_right Z.add 0%Z (map (fun _ : nat => (1 * 1)%Z) (seq b k)) = Z.of_nat k) by (induction k as [|k IH]; intro b; cbn [seq map fold_right]; [reflexivity|rewrite IH; lia]).
    unfold mulVec in H. rewrite !L in H. lia.
  - intros [->| ->] a x i Hi; [lia|reflexivity].
Qed.
Print Assumptions C38_order.
Print Assumptions C38_pair.
Print Assumptions C38_lone_refuted.
Print Assumptions C38_never_refuted.
Print Assumptions C38_dead_refuted.
Print Assumptions C38_panic_refuted.
Print Assumptions C38_dgemv.

(** ** Cases *)
Definition nb (n : nat) : @call nat := Call n false.
Example C38_interleaved_ex : match run (fun n => 2 * n) [Put (nb 1); Start; Tick; Put (nb 2); Tick; Put (nb 3); Put (nb 4); Tick; Tick; Tick; Tick; Put (nb 5)] newContext with
  | Some s => map args (ran s) = [1; 2; 3; 4] /\ map args (work s) = [5] /\ at_ s = Outside
  | None => False end.
Proof. vm_compute. repeat split. Qed.
Example C38_pair_ex : exists s', doesWork (fun n => 2 * n) (St [nb 2; nb 3; nb 4] [nb 1] 3 [] Outside) s' /\ ran s' = [nb 1; nb 2; nb 3; nb 4].
Proof. exists (St [] [] 3 [nb 1; nb 2; nb 3; nb 4] Outside). split; [split; [left; reflexivity|exists 5; reflexivity]|reflexivity]. Qed.
Example C38_never_ex : rounds (fun n => 2 * n) [nb 1; Call 2 true; nb 3; nb 4] newContext (St [] [nb 1; Call 2 true; nb 3; nb 4] 8 [] Outside).
Proof.
  apply (rn_cons _ _ _ _ (St [nb 1] [] 3 [] Outside) (St [] [nb 1] 3 [] Outside)); [reflexivity|split; [left; reflexivity|exists 3; reflexivity]|].
  apply (rn_cons _ _ _ _ (St [Call 2 true] [nb 1] 3 [] Outside) (St [] [nb 1; Call 2 true] 3 [] Outside)); [reflexivity|split; [left; reflexivity|exists 3; reflexivity]|].
  apply (rn_cons _ _ _ _ (St [nb 3] [nb 1; Call 2 true] 3 [] Outside) (St [] [nb 1; Call 2 true; nb 3] 3 [] Outside)); [reflexivity|split; [left; reflexivity|exists 3; reflexivity]|].
  apply (rn_cons _ _ _ _ (St [nb 4] [nb 1; Call 2 true; nb 3] 3 [] Outside) (St [] [nb 1; Call 2 true; nb 3; nb 4] 8 [] Outside)); [reflexivity|split; [left; reflexivity|exists 3; reflexivity]|].
  apply rn_nil.
Qed.
(** Two calls left over, three more put and DoWork called twice: nothing runs. *)
Example C38_dead_ex : match run (fun n => 2 * n) ([Put (nb 3); Put (nb 4); Put (nb 5); Start; Tick; Tick; Tick; Tick; Start; Tick]) (St [] [nb 1; nb 2] 3 [] Outside) with
  | Some s => ran s = [] /\ map args (queue s) = [1; 2; 3; 4; 5]
  | None => False end.
Proof. vm_compute. repeat split. Qed.
Example C38_panic_ex : exists s', doesWork (fun n => 2 * n) (St [nb 3; nb 4; nb 5] [nb 1; nb 2] 3 [] Outside) s' /\ at_ s' = Panicked.
Proof. destruct (C38_panic_refuted (fun n => 2 * n) (nb 1) (nb 2) (nb 3) (nb 4) (nb 5) []) as [s' [H1 [H2 _]]]; [lia|reflexivity|]. exists s'. auto. Qed.
Example C38_dgemv_ex : mulVec (i1 (dgemvArgs 2 3 3)) 3 (fun k => Z.of_nat k) (fun _ => 1%Z) 1 = 7%Z /\ mulVec 3 3 (fun k => Z.of_nat k) (fun _ => 1%Z) 1 = 12%Z.
Proof. split; reflexivity. Qed.
