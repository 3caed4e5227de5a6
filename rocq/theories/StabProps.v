(** C19, the softmax half. *)
From Coq Require Import Arith Reals Lra List Bool Lia.
From Verif Require Import CtcSpec CtcDeriv OpHashModel OpHashProps StabModel StabSpec.
Import ListNotations.

Section Size.
Variable n : nat.

Lemma evalF_fuel h : ordered h -> forall f f' p, p < f -> p < f' -> evalF n f h p = evalF n f' h p.
Proof.
  intro O. induction f as [|f IH]; intros f' p H H'; [lia|]. destruct f' as [|f']; [lia|]. cbn [evalF].
  destruct (nth_error h p) as [x|] eqn:E; [|reflexivity]. specialize (O p x E).
  assert (C : forall c, In c (childrenOf x) -> evalF n f h c = evalF n f' h c).
  { intros c Hc. rewrite Forall_forall in O. specialize (O c Hc). apply IH; lia. }
  destruct x; cbn [childrenOf] in C; try reflexivity.
  - rewrite (C c) by (left; reflexivity). reflexivity.
  - rewrite (C a), (C b) by (cbn; auto). reflexivity.
  - rewrite (C a), (C b) by (cbn; auto). reflexivity.
  - rewrite (C c) by (left; reflexivity). reflexivity.
  - f_equal. apply map_ext_in. exact C.
Qed.

(** One step of evaluation. *)
Lemma eval_step h p : ordered h -> eval n h p =
  match nth_error h p with
  | None => fun _ => 0%R
  | Some (SVar v) => v
  | Some (SSoftmax c l) => softmaxVec l n (eval n h c)
  | Some (SMul a b) => fun i => (eval n h a i * eval n h b i)%R
  | Some (SAdd a b) => fun i => (eval n h a i + eval n h b i)%R
  | Some (SLn c) => fun i => ln (eval n h c i)
  | Some (SOther g cs) => g (map (eval n h) cs)
  end.
Proof.
  intro O. unfold eval at 1. cbn [evalF]. destruct (nth_error h p) as [x|] eqn:E; [|reflexivity].
  pose proof (O p x E) as F. rewrite Forall_forall in F.
  assert (C : forall c, In c (childrenOf x) -> evalF n p h c = eval n h c).
  { intros c Hc. specialize (F c Hc). apply evalF_fuel; auto. }
  destruct x; cbn [childrenOf] in C; try reflexivity.
  - rewrite (C c) by (left; reflexivity). reflexivity.
  - rewrite (C a), (C b) by (cbn; auto). reflexivity.
  - rewrite (C a), (C b) by (cbn; auto). reflexivity.
  - rewrite (C c) by (left; reflexivity). reflexivity.
  - f_equal. apply map_ext_in. exact C.
Qed.

(** ** Changing a flag *)
Lemma setLog_length h : forall p, length (setLog h p) = length h.
Proof. induction h as [|x h IH]; intros [|p]; try reflexivity; [destruct x; reflexivity|]. destruct x; cbn [setLog length]; rewrite IH; reflexivity. Qed.
Lemma setLog_other h : forall p q, q <> p -> nth_error (setLog h p) q = nth_error h q.
Proof.
  induction h as [|x h IH]; intros [|p] [|q] N; try reflexivity; try lia; destruct x; cbn [setLog nth_error]; try reflexivity;
    apply IH; lia.
Qed.
Lemma setLog_same h : forall p, nth_error (setLog h p) p =
  match nth_error h p with Some (SSoftmax c _) => Some (SSoftmax c true) | o => o end.
Proof. induction h as [|x h IH]; intros [|p]; try reflexivity; destruct x; cbn [setLog nth_error]; try reflexivity; apply IH. Qed.
Lemma setLog_children h p q : option_map childrenOf (nth_error (setLog h p) q) = option_map childrenOf (nth_error h q).
Proof.
  destruct (Nat.eq_dec q p) as [->|N]; [|rewrite setLog_other by exact N; reflexivity].
  rewrite setLog_same. destruct (nth_error h p) as [[]|]; reflexivity.
Qed.
Lemma setLog_ordered h p : ordered h -> ordered (setLog h p).
Proof.
  intros O q x E. assert (C := setLog_children h p q). rewrite E in C. cbn [option_map] in C.
  destruct (nth_error h q) as [y|] eqn:F; [|discriminate]. cbn [option_map] in C. injection C as ->. eapply O, F.
Qed.
Lemma setLog_unused h a : ordered h -> forall q, ~ uses h a q -> eval n (setLog h a) q = eval n h q.
Proof.
  intros O q. induction q as [q IH] using lt_wf_ind. intro N.
  assert (q <> a) by (intros ->; apply N; constructor).
  rewrite (eval_step (setLog h a)), (eval_step h) by auto using setLog_ordered. rewrite setLog_other by assumption.
  destruct (nth_error h q) as [x|] eqn:E; [|reflexivity]. pose proof (O q x E) as F. rewrite Forall_forall in F.
  assert (C : forall c, In c (childrenOf x) -> eval n (setLog h a) c = eval n h c).
  { intros c Hc. apply IH; [apply F, Hc|]. intro U. apply N. eapply uses_step; eauto. }
  destruct x; cbn [childrenOf] in C; try reflexivity.
  - rewrite (C c) by (left; reflexivity). reflexivity.
  - rewrite (C a0), (C b) by (cbn; auto). reflexivity.
  - rewrite (C a0), (C b) by (cbn; auto). reflexivity.
  - rewrite (C c) by (left; reflexivity). reflexivity.
  - f_equal. apply map_ext_in. exact C.
Qed.
Lemma not_uses_older h a q : ordered h -> q < a -> ~ uses h a q.
Proof.
  intros O L U. induction U as [|q x c E Hc U IH]; [lia|]. pose proof (O q x E) as F. rewrite Forall_forall in F.
  specialize (F c Hc). apply IH. lia.
Qed.

Lemma softmax_log a i : softmaxVec true n a i = ln (softmaxVec false n a i).
Proof. reflexivity. Qed.

(** ** Adding a node *)
Lemma push_eval h x q : ordered h -> q < length h -> eval n (h ++ [x]) q = eval n h q.
Proof.
  intros O. unfold eval. assert (G : forall f q, q < length h -> evalF n f (h ++ [x]) q = evalF n f h q).
  { induction f as [|f IH]; intros p Hp; [reflexivity|]. cbn [evalF]. rewrite nth_error_app1 by exact Hp.
    destruct (nth_error h p) as [y|] eqn:E; [|reflexivity]. pose proof (O p y E) as F. rewrite Forall_forall in F.
    assert (C : forall c, In c (childrenOf y) -> evalF n f (h ++ [x]) c = evalF n f h c).
    { intros c Hc. apply IH. specialize (F c Hc). lia. }
    destruct y; cbn [childrenOf] in C; try reflexivity.
    - rewrite (C c) by (left; reflexivity). reflexivity.
    - rewrite (C a), (C b) by (cbn; auto). reflexivity.
    - rewrite (C a), (C b) by (cbn; auto). reflexivity.
    - rewrite (C c) by (left; reflexivity). reflexivity.
    - f_equal. apply map_ext_in. exact C. }
  intro Hq. apply G, Hq.
Qed.
Lemma push_ordered h x : ordered h -> Forall (fun c => c < length h) (childrenOf x) -> ordered (h ++ [x]).
Proof.
  intros O F p y E. destruct (Nat.lt_ge_cases p (length h)) as [L|L].
  - rewrite nth_error_app1 in E by exact L. eapply O, E.
  - rewrite nth_error_app2 in E by exact L. destruct (p - length h) as [|k] eqn:D; cbn [nth_error] in E; [|destruct k; discriminate].
    injection E as <-. eapply Forall_impl; [|exact F]. cbv beta. intros; lia.
Qed.
End Size.

(** Taking the log of a softmax node: the node returned is that node itself, it now
    holds the log everywhere, its old value nowhere; every other node not computed
    from it keeps its value; a node that multiplies it by something else changes
    wherever the other factor is not zero. *)
Theorem C19_softmax_node_switches : forall n h a c,
  ordered h -> nth_error h a = Some (SSoftmax c false) ->
  exists h', logNode h a = (h', a) /\
    (forall i, eval n h' a i = ln (eval n h a i)) /\
    (forall i, i < n -> eval n h' a i <> eval n h a i) /\
    (forall q, ~ uses h a q -> eval n h' q = eval n h q) /\
    (forall q b i, nth_error h q = Some (SMul a b) -> ~ uses h a b -> i < n -> eval n h b i <> 0%R ->
       eval n h' q i = (ln (eval n h a i) * eval n h b i)%R /\ eval n h' q i <> eval n h q i).
Proof.
  intros n h a c O E. exists (setLog h a). split; [unfold logNode; cbn [logF]; rewrite E; reflexivity|].
  assert (L : forall i, eval n (setLog h a) a i = ln (eval n h a i)).
  { intro i. rewrite (eval_step n (setLog h a)), (eval_step n h a) by auto using setLog_ordered. rewrite setLog_same, E.
    rewrite setLog_unused; [apply softmax_log|exact O|]. pose proof (O a _ E) as F. inversion F as [|? ? Lt _]; subst.
    apply not_uses_older; assumption. }
  assert (D : forall i, i < n -> eval n (setLog h a) a i <> eval n h a i).
  { intros i Hi. rewrite L. rewrite (eval_step n h a O), E. rewrite <- softmax_log.
    apply (C02_softmax_refuted 0), Hi. }
  split; [exact L|]. split; [exact D|]. split; [intros q N; apply setLog_unused; assumption|].
  intros q b i Eq Nb Hi Nz.
  assert (Nq : q <> a) by congruence.
  assert (V : eval n (setLog h a) q i = (ln (eval n h a i) * eval n h b i)%R).
  { rewrite (eval_step n (setLog h a)) by auto using setLog_ordered. rewrite setLog_other, Eq by exact Nq. rewrite L.
    rewrite setLog_unused by assumption. reflexivity. }
  split; [exact V|]. rewrite V. rewrite (eval_step n h q O), Eq. intro X. apply Rmult_eq_reg_r in X; [|exact Nz].
  apply (D i Hi). rewrite L. exact X.
Qed.
Print Assumptions C19_softmax_node_switches.

(** log (x * softmax) comes out as log x + log-softmax when x is another operator's
    value, positive and not computed from that softmax ... *)
Theorem C19_log_of_product : forall n h a x s c i,
  ordered h -> a < length h -> nth_error h a = Some (SMul x s) -> nth_error h s = Some (SSoftmax c false) ->
  (forall p q, nth_error h x <> Some (SMul p q)) -> isSoftmax h x = false ->
  ~ uses h s x -> (0 < eval n h x i)%R -> i < n ->
  eval n (fst (logNode h a)) (snd (logNode h a)) i = ln (eval n h a i).
Proof.
  intros n h a x s c i O La E Es Nm Ns Nu Px Hi.
  assert (Hs : isSoftmax h s = true) by (unfold isSoftmax; rewrite Es; reflexivity).
  pose proof (O a _ E) as F. inversion F as [|? ? Lx F2]; subst. inversion F2 as [|? ? Ls _]; subst.
  assert (Xs : x <> s) by (intros ->; apply Nu; constructor).
  set (h1 := setLog h s). assert (O1 : ordered h1) by (apply setLog_ordered, O).
  assert (L1 : length h1 = length h) by apply setLog_length.
  assert (Lg : logF a h1 x = (h1 ++ [SLn x], length h1)).
  { destruct a as [|a']; [lia|]. cbn [logF]. unfold h1. rewrite setLog_other by exact Xs.
    destruct (nth_error h x) as [[]|] eqn:Ex; try reflexivity.
    - exfalso. unfold isSoftmax in Ns. rewrite Ex in Ns. discriminate.
    - exfalso. eapply Nm. reflexivity. }
  unfold logNode. cbn [logF]. rewrite E, Ns, Hs. fold h1. rewrite Lg. unfold push. cbn [fst snd].
  set (h2 := h1 ++ [SLn x]).
  assert (O2 : ordered h2) by (apply push_ordered; [exact O1|cbn; constructor; [lia|constructor]]).
  assert (L2 : length h2 = S (length h)) by (unfold h2; rewrite app_length; cbn [length]; lia).
  assert (O3 : ordered (h2 ++ [SAdd (length h1) s])).
  { apply push_ordered; [exact O2|]. cbn. constructor; [lia|]. constructor; [lia|constructor]. }
  rewrite (eval_step n (h2 ++ [SAdd (length h1) s])) by exact O3. rewrite nth_error_app2, Nat.sub_diag by lia. cbn [nth_error].
  rewrite !push_eval by (auto; lia).
  rewrite (eval_step n h2 (length h1)) by exact O2. unfold h2 at 1. rewrite nth_error_app2, Nat.sub_diag by lia. cbn [nth_error].
  unfold h2. rewrite !push_eval by (auto; lia).
  unfold h1. rewrite setLog_unused by assumption.
  rewrite (eval_step n h a O), E.
  destruct (C19_softmax_node_switches n h s c O Es) as [h' [Eh [Lv _]]]. unfold logNode in Eh. cbn [logF] in Eh. rewrite Es in Eh.
  injection Eh as <-. rewrite Lv.
  assert (0 < eval n h s i)%R.
  { rewrite (eval_step n h s O), Es. apply (softmax_pos n (eval n h c) i). lia. }
  rewrite ln_mult by assumption. reflexivity.
Qed.
Print Assumptions C19_log_of_product.

(** ... and wrong when x is computed from it, however the values are. *)
Theorem C19_log_of_product_refuted : forall n, 0 < n ->
  exists h a x s c, ordered h /\ nth_error h a = Some (SMul x s) /\ nth_error h s = Some (SSoftmax c false) /\
    (forall i, i < n -> (0 < eval n h x i)%R) /\
    forall i, i < n -> eval n (fst (logNode h a)) (snd (logNode h a)) i <> ln (eval n h a i).
Proof.
  intros n Hn.
  set (f := fun vs : list vec => match vs with v :: _ => fun i => exp (v i) | [] => fun _ => 0%R end).
  set (h := [SVar (fun _ => 0%R); SSoftmax 0 false; SOther f [1]; SMul 2 1]).
  exists h, 3, 2, 1, 0.
  assert (O : ordered h).
  { intros p x E. destruct p as [|[|[|[|p]]]]; cbn in E; try (injection E as <-; cbn; repeat constructor); try lia.
    destruct p; discriminate. }
  split; [exact O|]. split; [reflexivity|]. split; [reflexivity|].
  split; [intros i Hi; cbn; apply exp_pos|].
  intros i Hi. assert (S1 : (0 < softmaxVec false n (fun _ => 0%R) i)%R) by (apply (softmax_pos n (fun _ => 0%R) i); lia).
  assert (N1 := proj2 (C02_softmax_refuted 0 n (fun _ => 0%R) i Hi)).
  cbn. rewrite ln_mult; [|apply exp_pos|exact S1]. rewrite !ln_exp. cbn in N1. intro X. apply N1.
  apply Rplus_eq_reg_r in X. exact X.
Qed.
Print Assumptions C19_log_of_product_refuted.

Example C19_softmax_ex : ordered [SVar (fun _ => 1%R); SSoftmax 0 false; SMul 1 0] /\
  nth_error [SVar (fun _ => 1%R); SSoftmax 0 false; SMul 1 0] 1 = Some (SSoftmax 0 false).
Proof.
  split; [|reflexivity]. intros p x E. destruct p as [|[|[|p]]]; cbn in E; try (injection E as <-; cbn; repeat constructor).
  destruct p; discriminate.
Qed.

(** ** Products of several softmaxes *)
Definition setLogs (h : heap) (ss : list nat) : heap := fold_left setLog ss h.
Lemma setLogs_length ss : forall h, length (setLogs h ss) = length h.
Proof. induction ss as [|s ss IH]; intro h; [reflexivity|]. unfold setLogs in *. cbn [fold_left]. rewrite IH. apply setLog_length. Qed.
Lemma setLogs_ordered ss : forall h, ordered h -> ordered (setLogs h ss).
Proof. induction ss as [|s ss IH]; intros h O; [exact O|]. unfold setLogs in *. cbn [fold_left]. apply IH, setLog_ordered, O. Qed.
Lemma softmaxAt_dec h p : isSoftmax h p = true <-> softmaxAt h p.
Proof.
  unfold isSoftmax, softmaxAt. destruct (nth_error h p) as [[]|]; split; intro H; try discriminate; try reflexivity;
    try (destruct H as (? & ? & ?); discriminate). eauto.
Qed.
Lemma isSoftmax_setLog h s p : isSoftmax (setLog h s) p = isSoftmax h p.
Proof.
  unfold isSoftmax. destruct (Nat.eq_dec p s) as [->|N]; [|rewrite setLog_other by exact N; reflexivity].
  rewrite setLog_same. destruct (nth_error h s) as [[]|]; reflexivity.
Qed.
Lemma softmaxAt_setLog h s p : softmaxAt (setLog h s) p <-> softmaxAt h p.
Proof. rewrite <- !softmaxAt_dec, isSoftmax_setLog. reflexivity. Qed.
Lemma mul_setLog h s p x y : nth_error (setLog h s) p = Some (SMul x y) <-> nth_error h p = Some (SMul x y).
Proof.
  destruct (Nat.eq_dec p s) as [->|N]; [|rewrite setLog_other by exact N; reflexivity].
  rewrite setLog_same. destruct (nth_error h s) as [[]|]; split; intro H; try discriminate; exact H.
Qed.
Lemma chain_setLog h s a ss r : chain h a ss r -> chain (setLog h s) a ss r.
Proof.
  intro C. induction C as [a H|a L H H2|a s' x ss r E H C IH|a s' x ss r E H N C IH].
  - apply chain_self, softmaxAt_setLog, H.
  - apply chain_rest; [rewrite setLog_length; exact L|rewrite softmaxAt_setLog; exact H|].
    intros x y E. rewrite !softmaxAt_setLog. apply H2, (mul_setLog h s), E.
  - eapply chain_left; [apply mul_setLog, E|apply softmaxAt_setLog, H|exact IH].
  - eapply chain_right; [apply mul_setLog, E|apply softmaxAt_setLog, H|rewrite softmaxAt_setLog; exact N|exact IH].
Qed.
Lemma chain_in h a ss r : chain h a ss r -> Forall (softmaxAt h) ss.
Proof. intro C. induction C; repeat constructor; assumption. Qed.
Lemma uses_setLog h s a q : uses (setLog h s) a q <-> uses h a q.
Proof.
  assert (G : forall h1 h2, (forall p, option_map childrenOf (nth_error h1 p) = option_map childrenOf (nth_error h2 p)) ->
    uses h1 a q -> uses h2 a q).
  { intros h1 h2 H U. induction U as [|q x c E I U IH]; [constructor|]. specialize (H q). rewrite E in H. cbn [option_map] in H.
    destruct (nth_error h2 q) as [y|] eqn:F; [|discriminate]. injection H as H. eapply uses_step; [exact F|rewrite <- H; exact I|exact IH]. }
  split; apply G; intro p; [apply setLog_children|symmetry; apply setLog_children].
Qed.
Lemma setLogs_unused n ss : forall h q, ordered h -> (forall s, In s ss -> ~ uses h s q) -> eval n (setLogs h ss) q = eval n h q.
Proof.
  induction ss as [|s ss IH]; intros h q O H; [reflexivity|]. unfold setLogs in *. cbn [fold_left]. rewrite IH.
  - apply setLog_unused; [exact O|apply H; left; reflexivity].
  - apply setLog_ordered, O.
  - intros s' I. rewrite uses_setLog. apply H. right. exact I.
Qed.
Lemma setLogs_flag ss : forall h s, softmaxAt h s -> In s ss \/ (exists c, nth_error h s = Some (SSoftmax c true)) ->
  exists c l, nth_error h s = Some (SSoftmax c l) /\ nth_error (setLogs h ss) s = Some (SSoftmax c true).
Proof.
  induction ss as [|t ss IH]; intros h s (c & l & E) H; unfold setLogs in *; cbn [fold_left].
  - destruct H as [[]|[c' E']]. exists c', true. auto.
  - destruct (Nat.eq_dec s t) as [->|N].
    + destruct (IH (setLog h t) t) as (c' & l' & E1 & E2).
      * apply softmaxAt_setLog. exists c, l. exact E.
      * right. exists c. rewrite setLog_same, E. reflexivity.
      * rewrite setLog_same, E in E1. injection E1 as <- <-. exists c, l. auto.
    + destruct (IH (setLog h t) s) as (c' & l' & E1 & E2).
      * apply softmaxAt_setLog. exists c, l. exact E.
      * destruct H as [[H|H]|[c' H]]; [congruence|left; exact H|]. right. exists c'. rewrite setLog_other by exact N. exact H.
      * rewrite setLog_other in E1 by exact N. exists c', l'. auto.
Qed.
(** What the construction adds to the heap, and what the new node holds. *)
Lemma log_chain n h a ss r : chain h a ss r -> ordered h -> forall f, a < f ->
  exists new p, logF f h a = (setLogs h ss ++ new, p) /\ ordered (setLogs h ss ++ new) /\ p < length (setLogs h ss ++ new) /\
    forall i, eval n (setLogs h ss ++ new) p i =
      (fold_right (fun s t => eval n (setLogs h ss) s i + t) (match r with Some x => ln (eval n (setLogs h ss) x i) | None => 0 end) ss)%R.
Proof.
  intro C. remember (length ss) as k eqn:K. assert (Kle : length ss <= k) by lia. clear K. revert h a ss r Kle C.
  assert (X : forall h new x, ordered (h ++ new) -> Forall (fun c => c < length (h ++ new)) (childrenOf x) -> ordered (h ++ (new ++ [x]))).
  { intros h new x O F. rewrite app_assoc. apply push_ordered; assumption. }
  assert (OLD : forall h new q, ordered h -> ordered (h ++ new) -> q < length h -> eval n (h ++ new) q = eval n h q).
  { intros h new q Oh. revert q. induction new as [|x new IH] using rev_ind; intros q O L; [rewrite app_nil_r; reflexivity|].
    rewrite app_assoc in *. assert (O' : ordered (h ++ new)).
    { intros p y E. apply (O p y). rewrite nth_error_app1; [exact E|]. apply nth_error_Some. congruence. }
    rewrite push_eval; [apply IH; assumption|exact O'|rewrite app_length; lia]. }
  induction k as [|k IH]; intros h a ss r Kle C O f Hf.
  - destruct C as [a H|a L H H2|a s x ss r E H C|a s x ss r E H N C]; cbn [length] in Kle; try lia.
    destruct f as [|f]; [lia|]. exists [SLn a], (length h). cbn [setLogs fold_left fold_right].
    assert (Q : logF (S f) h a = (h ++ [SLn a], length h)).
    { cbn [logF]. destruct (nth_error h a) as [[]|] eqn:E; try reflexivity.
      - exfalso. apply H. exists c, isLog. exact E.
      - destruct (H2 _ _ eq_refl) as [Na Nb]. destruct (isSoftmax h a0) eqn:I1; [apply softmaxAt_dec in I1; tauto|].
        destruct (isSoftmax h b) eqn:I2; [apply softmaxAt_dec in I2; tauto|]. reflexivity. }
    assert (O' : ordered (h ++ [SLn a])) by (apply push_ordered; [exact O|repeat constructor; exact L]).
    split; [exact Q|]. split; [exact O'|]. split; [rewrite app_length; cbn [length]; lia|]. intro i.
    rewrite eval_step by exact O'. rewrite nth_error_app2, Nat.sub_diag by lia. cbn [nth_error].
    rewrite push_eval by assumption. reflexivity.
  - destruct C as [a H|a L H H2|a s x ss r E H C|a s x ss r E H N C]; cbn [length] in Kle.
    + exists [], a. unfold setLogs. cbn [fold_left fold_right]. rewrite app_nil_r. destruct f as [|f]; [lia|]. cbn [logF].
      destruct H as (c & l & E). rewrite E. split; [reflexivity|]. split; [apply setLog_ordered, O|].
      split; [rewrite setLog_length; apply nth_error_Some; congruence|]. intro i. ring.
    + apply (IH h a [] (Some a)); cbn [length]; [lia|constructor; assumption|exact O|exact Hf].
    + pose proof (O a _ E) as F. inversion F as [|? ? Ls F2]; subst. inversion F2 as [|? ? Lx _]; subst.
      assert (La : a < length h) by (apply nth_error_Some; congruence).
      destruct f as [|f]; [lia|]. cbn [logF]. rewrite E. rewrite (proj2 (softmaxAt_dec h s) H).
      destruct (isSoftmax h x) eqn:Ix.
      * apply softmaxAt_dec in Ix. destruct C as [x _|x L2 H3 _|x s' y ss r E2 _ _|x s' y ss r E2 _ _ _];
          try tauto; try (destruct Ix as (c & l & Ex); congruence).
        exists [SAdd s x], (length h). unfold push, setLogs. cbn [fold_left fold_right]. rewrite !setLog_length. split; [reflexivity|].
        assert (O2 : ordered (setLog (setLog h s) x)) by (apply setLog_ordered, setLog_ordered, O).
        assert (L2 : length (setLog (setLog h s) x) = length h) by (rewrite !setLog_length; reflexivity).
        assert (O' : ordered (setLog (setLog h s) x ++ [SAdd s x])).
        { apply push_ordered; [exact O2|]. rewrite L2. repeat constructor; lia. }
        split; [exact O'|]. split; [rewrite app_length, L2; cbn [length]; lia|]. intro i.
        rewrite eval_step by exact O'. rewrite nth_error_app2, L2, Nat.sub_diag by lia. cbn [nth_error].
        rewrite !push_eval by (auto; lia). ring.
      * destruct (IH (setLog h s) x ss r ltac:(lia) (chain_setLog h s x ss r C) (setLog_ordered h s O) f ltac:(lia))
          as (new & p & Q & O' & Lp & V).
        rewrite Q. change (setLogs (setLog h s) ss) with (setLogs h (s :: ss)) in *.
        exists (new ++ [SAdd s p]), (length (setLogs h (s :: ss) ++ new)). unfold push. rewrite app_assoc. split; [reflexivity|].
        assert (Lh : length (setLogs h (s :: ss)) = length h) by apply setLogs_length.
        assert (O2 : ordered ((setLogs h (s :: ss) ++ new) ++ [SAdd s p])).
        { apply push_ordered; [exact O'|]. repeat constructor; [rewrite app_length, Lh; lia|exact Lp]. }
        split; [exact O2|]. split; [rewrite (app_length _ [_]); cbn [length]; lia|]. intro i.
        rewrite eval_step by exact O2. rewrite nth_error_app2, Nat.sub_diag by lia. cbn [nth_error].
        rewrite !push_eval by (auto; rewrite app_length, Lh; lia).
        rewrite OLD by (auto using setLogs_ordered; lia). cbn [fold_right]. rewrite V. reflexivity.
    + pose proof (O a _ E) as F. inversion F as [|? ? Lx F2]; subst. inversion F2 as [|? ? Ls _]; subst.
      assert (La : a < length h) by (apply nth_error_Some; congruence).
      destruct f as [|f]; [lia|]. cbn [logF]. rewrite E. rewrite (proj2 (softmaxAt_dec h s) H).
      destruct (isSoftmax h x) eqn:Ix; [apply softmaxAt_dec in Ix; tauto|].
      destruct (IH (setLog h s) x ss r ltac:(lia) (chain_setLog h s x ss r C) (setLog_ordered h s O) f ltac:(lia))
          as (new & p & Q & O' & Lp & V).
      rewrite Q. change (setLogs (setLog h s) ss) with (setLogs h (s :: ss)) in *.
      exists (new ++ [SAdd p s]), (length (setLogs h (s :: ss) ++ new)). unfold push. rewrite app_assoc. split; [reflexivity|].
      assert (Lh : length (setLogs h (s :: ss)) = length h) by apply setLogs_length.
      assert (O2 : ordered ((setLogs h (s :: ss) ++ new) ++ [SAdd p s])).
      { apply push_ordered; [exact O'|]. repeat constructor; [exact Lp|rewrite app_length, Lh; lia]. }
      split; [exact O2|]. split; [rewrite (app_length _ [_]); cbn [length]; lia|]. intro i.
      rewrite eval_step by exact O2. rewrite nth_error_app2, Nat.sub_diag by lia. cbn [nth_error].
      rewrite !push_eval by (auto; rewrite app_length, Lh; lia).
      rewrite (OLD _ new s) by (auto using setLogs_ordered; lia). cbn [fold_right]. rewrite V. ring.
Qed.

(** The log of any such product is the log, as long as neither the other factor nor
    one of the softmaxes is computed from one of the softmaxes, none of them is a
    log-softmax already and the other factor is positive.  A product without a softmax
    factor is one [rest].  Every older node not computed from one of the softmaxes
    keeps its value. *)
Theorem C19_log_of_chain : forall n h a ss r i,
  ordered h -> chain h a ss r -> i < n ->
  (forall s, In s ss -> exists c, nth_error h s = Some (SSoftmax c false)) ->
  (forall s t, In s ss -> In t ss -> s <> t -> ~ uses h s t) ->
  (forall x, r = Some x -> (forall s, In s ss -> ~ uses h s x) /\ (0 < eval n h x i)%R) ->
  eval n (fst (logNode h a)) (snd (logNode h a)) i = ln (eval n h a i) /\
  forall q, q < length h -> (forall s, In s ss -> ~ uses h s q) -> eval n (fst (logNode h a)) q = eval n h q.
Proof.
  intros n h a ss r i O C Hi Fl Ind Rest.
  destruct (log_chain n h a ss r C O (S a) ltac:(lia)) as (new & p & Q & O' & Lp & V).
  unfold logNode. rewrite Q. cbn [fst snd]. split.
  - rewrite V. clear V Q O' Lp.
    assert (Sv : forall s, In s ss -> eval n (setLogs h ss) s i = ln (eval n h s i) /\ (0 < eval n h s i)%R).
    { intros s I. destruct (Fl s I) as [c E].
      destruct (setLogs_flag ss h s ltac:(exists c, false; exact E) (or_introl I)) as (c' & l' & E1 & E2).
      rewrite E in E1. injection E1 as <- <-.
      rewrite (eval_step n (setLogs h ss)) by (apply setLogs_ordered, O). rewrite E2.
      rewrite (eval_step n h s O), E. pose proof (O s _ E) as F. inversion F as [|? ? Lc _]; subst.
      rewrite setLogs_unused; [|exact O|].
      - split; [apply softmax_log|apply (softmax_pos n (eval n h c) i); lia].
      - intros t It U. destruct (Nat.eq_dec t s) as [->|N]; [revert U; apply not_uses_older; assumption|].
        apply (Ind t s It I N). eapply uses_step; [exact E|left; reflexivity|exact U]. }
    assert (Rv : forall x, r = Some x -> eval n (setLogs h ss) x i = eval n h x i).
    { intros x Er. rewrite setLogs_unused; [reflexivity|exact O|apply (Rest x Er)]. }
    assert (G : forall H a' ss' r', chain h a' ss' r' -> r' = r -> (forall s, In s ss' -> In s ss) ->
      ((H = setLogs h ss -> fold_right (fun s t => eval n H s i + t) (match r' with Some x => ln (eval n H x i) | None => 0 end) ss' = ln (eval n h a' i)) /\ 0 < eval n h a' i)%R).
    { intros H a' ss' r' C'. induction C' as [b Hb|b L Hb H2|b s x ss' r' E Hs C' IH|b s x ss' r' E Hs N C' IH]; intros Er Sub.
      - destruct (Sv b (Sub b (or_introl eq_refl))) as [S1 S2]. split; [|exact S2]. intros ->. cbn [fold_right]. rewrite S1. ring.
      - split; [|apply (Rest b); congruence]. intros ->. cbn [fold_right]. rewrite Rv by congruence. reflexivity.
      - destruct (IH Er) as [I1 I2]; [intros; apply Sub; right; assumption|].
        destruct (Sv s (Sub s (or_introl eq_refl))) as [S1 S2]. rewrite (eval_step n h b O), E.
        split; [|apply Rmult_lt_0_compat; assumption]. intros EH. cbn [fold_right]. rewrite (I1 EH). subst H. rewrite S1.
        symmetry. apply ln_mult; assumption.
      - destruct (IH Er) as [I1 I2]; [intros; apply Sub; right; assumption|].
        destruct (Sv s (Sub s (or_introl eq_refl))) as [S1 S2]. rewrite (eval_step n h b O), E.
        split; [|apply Rmult_lt_0_compat; assumption]. intros EH. cbn [fold_right]. rewrite (I1 EH). subst H. rewrite S1.
        rewrite ln_mult by assumption. ring. }
    exact (proj1 (G (setLogs h ss) a ss r C eq_refl (fun s I => I)) eq_refl).
  - intros q Lq Nq. rewrite <- (setLogs_unused n ss h q O Nq). clear V Q Lp.
    assert (OLD : forall m new, ordered m -> ordered (m ++ new) -> q < length m -> eval n (m ++ new) q = eval n m q).
    { intros m nw Om. induction nw as [|x nw IH] using rev_ind; intros Oq L; [rewrite app_nil_r; reflexivity|].
      rewrite app_assoc in *. assert (O2 : ordered (m ++ nw)).
      { intros p' y E. apply (Oq p' y). rewrite nth_error_app1; [exact E|]. apply nth_error_Some. congruence. }
      rewrite push_eval; [apply IH; assumption|exact O2|rewrite app_length; lia]. }
    apply OLD; [apply setLogs_ordered, O|exact O'|rewrite setLogs_length; exact Lq].
Qed.
Print Assumptions C19_log_of_chain.

Example C19_chain_ex : exists h a ss x, ordered h /\ chain h a ss (Some x) /\ length ss = 2 /\ ss = [2; 1].
Proof.
  set (h := [SVar (fun _ => 1%R); SSoftmax 0 false; SSoftmax 0 false; SMul 0 1; SMul 2 3]).
  assert (S1 : softmaxAt h 1) by (exists 0, false; reflexivity).
  assert (S2 : softmaxAt h 2) by (exists 0, false; reflexivity).
  assert (S0 : ~ softmaxAt h 0) by (intros (c & l & E); discriminate).
  exists h, 4, [2; 1], 0. split; [|split; [|split; reflexivity]].
  - intros p x E. destruct p as [|[|[|[|[|p]]]]]; cbn in E; try (injection E as <-; cbn; repeat constructor).
    destruct p; discriminate.
  - apply (chain_left h 4 2 3); [reflexivity|exact S2|]. apply (chain_right h 3 1 0); [reflexivity|exact S1|exact S0|].
    apply chain_rest; [cbn; lia|exact S0|]. intros x y E. discriminate.
Qed.
