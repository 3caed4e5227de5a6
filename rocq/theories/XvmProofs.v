(** Proofs for XvmProps.v: invariant, progress and termination of the concurrent machine. *)
From Coq Require Import List Arith ZArith Bool Lia Wellfounded FinFun.
From Verif Require Import XvmModel XvmSpec.
Import ListNotations.

Lemma upd_same {B} (f : nat -> B) i x : upd f i x i = x.
Proof. unfold upd. rewrite Nat.eqb_refl. reflexivity. Qed.
Lemma upd_other {B} (f : nat -> B) i j x : j <> i -> upd f i x j = f j.
Proof. intro H. unfold upd. destruct (Nat.eqb_spec j i); congruence. Qed.
Lemma upd2_same {B} (f : nat -> nat -> B) i p x : upd2 f i p x i p = x.
Proof. unfold upd2. rewrite Nat.eqb_refl. apply upd_same. Qed.
Lemma upd2_other {B} (f : nat -> nat -> B) i p j q x : (j, q) <> (i, p) -> upd2 f i p x j q = f j q.
Proof. intro H. unfold upd2. destruct (Nat.eqb_spec j i); [|reflexivity]. subst j. apply upd_other. congruence. Qed.

Section Pr.
Context {V : Type}.
Variable g : list (@node V).
Notation st := (@st V).
Notation node := (@node V).

Lemma len_setV (l : list V) k x : length (setV l k x) = length l.
Proof. revert k. induction l as [|y l IH]; intros [|k]; cbn [setV length]; auto. Qed.
Lemma nth_setV_same (l : list V) k x : k < length l -> nth_error (setV l k x) k = Some x.
Proof. revert k. induction l as [|y l IH]; intros [|k] H; cbn [setV length nth_error] in *; try lia; [reflexivity|]. apply IH. lia. Qed.
Lemma nth_setV_other (l : list V) k j x : j <> k -> nth_error (setV l k x) j = nth_error l j.
Proof. revert k j. induction l as [|y l IH]; intros [|k] [|j] H; cbn [setV nth_error]; try congruence; try reflexivity. apply IH. lia. Qed.

(** ** Subscribers *)
Lemma subs_in c i p : In (i, p) (subs g c) <-> exists a f cs, nth_error g i = Some (N (Op a f) cs) /\ nth_error cs p = Some c.
Proof.
  unfold subs. rewrite in_flat_map. split.
  - intros [j [Hj H]]. unfold subsOf in H. destruct (nth_error g j) as [[[v|a f] cs]|] eqn:E; cbn [isOp kd ch] in H; try contradiction.
    apply in_map_iff in H. destruct H as [q [Eq Hq]]. injection Eq as -> ->. apply filter_In in Hq. destruct Hq as [Hq Eq]. apply in_seq in Hq. apply Nat.eqb_eq in Eq. exists a, f, cs. split; [exact E|]. rewrite (nth_error_nth' cs (S c)) by lia. rewrite Eq. reflexivity.
  - intros [a [f [cs [E Hp]]]]. exists i. split; [apply in_seq; split; [lia|]; cbn; apply nth_error_Some; congruence|]. unfold subsOf. rewrite E. cbn [isOp kd ch]. apply in_map. apply filter_In. assert (L : p < length cs) by (apply nth_error_Some; congruence). split; [apply in_seq; lia|]. rewrite (nth_error_nth' cs (S c) L) in Hp. injection Hp as ->. apply Nat.eqb_refl.
Qed.
Lemma subs_nodup c : NoDup (subs g c).
Proof.
  unfold subs. assert (G : forall l, NoDup l -> NoDup (flat_map (subsOf g c) l)).
  { assert (F : forall j i p, In (i, p) (subsOf g c j) -> i = j).
    { intros j i p H. unfold subsOf in H. destruct (nth_error g j) as [n|]; [|contradiction]. destruct (isOp n); [|contradiction]. apply in_map_iff in H. destruct H as [q [Eq _]]. congruence. }
    assert (D : forall j, NoDup (subsOf g c j)).
    { intro j. unfold subsOf. destruct (nth_error g j) as [n|]; [|constructor]. destruct (isOp n); [|constructor]. apply FinFun.Injective_map_NoDup; [intros x y E; congruence|]. apply NoDup_filter, seq_NoDup. }
    induction l as [|j l IH]; intro H; cbn [flat_map]; [constructor|]. inversion_clear H as [|? ? H1 H2].
    assert (A : forall (l1 l2 : list (nat * nat)), NoDup l1 -> NoDup l2 -> (forall x, In x l1 -> ~ In x l2) -> NoDup (l1 ++ l2)).
    { induction l1 as [|x l1 IH1]; intros l2 A1 A2 A3; cbn [app]; [exact A2|]. inversion_clear A1 as [|? ? B1 B2]. constructor; [|apply IH1; auto; intros; apply A3; right; assumption]. rewrite in_app_iff. intros [K|K]; [contradiction|]. apply (A3 x); [left; reflexivity|exact K]. }
    apply A; [apply D|apply IH, H2|]. intros [i p] K1 K2. apply F in K1. subst i. apply in_flat_map in K2. destruct K2 as [m [M1 M2]]. apply F in M2. subst m. contradiction. }
  apply G, seq_NoDup.
Qed.
Lemma subs_index c k k' x : nth_error (subs g c) k = Some x -> nth_error (subs g c) k' = Some x -> k = k'.
Proof. intros H1 H2. apply (proj1 (NoDup_nth_error (subs g c)) (subs_nodup c)); [apply nth_error_Some; congruence|congruence]. Qed.
Lemma parent_out c i p a f cs : c < length g -> nth_error g i = Some (N (Op a f) cs) -> nth_error cs p = Some c -> hasOut g c = true.
Proof.
  intros Hc E Hp. unfold hasOut. destruct (nth_error g c) as [n|] eqn:Ec; [|apply nth_error_None in Ec; lia]. destruct (isOp n); [|reflexivity]. unfold hasParent. apply existsb_exists. exists (N (Op a f) cs). split; [eapply nth_error_In, E|]. cbn [ch]. apply existsb_exists. exists c. split; [eapply nth_error_In, Hp|apply Nat.eqb_refl].
Qed.

(** ** The invariant *)
Definition bad : Prop := exists j, failing g j.
Definition isRep (p : phase) : bool := match p with Fin _ true => true | _ => false end.
Definition unreported (f : nat -> phase) : nat := length (filter (fun i => negb (isRep (f i))) (seq 0 (length g))).
Definition done (f : nat -> phase) (c : nat) : Prop := exists b, f c = Fin None b.
Definition past (s : st) (c k : nat) : Prop := forall v' k', bc s c = BSend v' k' -> k < k'.

Record Inv (r : nat -> list nat) (s : st) : Prop := {
  iIn : forall i v cs, nth_error g i = Some (N (Input v) cs) -> out s i = v /\ (forall c, ph s i <> Recv c) /\ ph s i <> Comp;
  iOp : forall i a f cs, nth_error g i = Some (N (Op a f) cs) ->
    length (ins s i) = a /\ NoDup (r i) /\
    (forall p, In p (r i) -> exists c v, nth_error cs p = Some c /\ nth_error (ins s i) p = Some v /\ evals g c v) /\
    (ph s i = Start -> r i = []) /\ (forall c, ph s i = Recv c -> length (r i) = c /\ c < a) /\ (ph s i = Comp -> length (r i) = a) /\
    (ph s i = Emit \/ done (ph s) i -> evals g i (out s i));
  iFail : forall i e b, i < length g -> ph s i = Fin (Some e) b -> ctxExt s = true \/ bad;
  iMain : match mn s with
          | Loop t errs => t = unreported (ph s) /\ ctxPs s = false /\ (forall i e, i < length g -> ph s i = Fin (Some e) true -> errs <> []) /\
                           (errs <> [] -> ctxNodes s = true) /\ (errs <> [] -> ctxExt s = true \/ bad) /\ (ctxNodes s = true -> ctxExt s = true \/ bad)
          | Ended errs => (forall i, i < length g -> exists e, ph s i = Fin e true) /\ ctxPs s = true /\ (forall i e, i < length g -> ph s i = Fin (Some e) true -> errs <> []) /\
                          (errs <> [] -> ctxExt s = true \/ bad)
          end;
  iEdge : forall i a f cs p c k, nth_error g i = Some (N (Op a f) cs) -> nth_error cs p = Some c -> nth_error (subs g c) k = Some (i, p) ->
    ((In p (r i) \/ exists v, ed s i p = EHold v) -> done (ph s) c /\ past s c k) /\
    (forall v, ed s i p = EHold v -> evals g c v /\ ~ In p (r i)) /\
    (ctxExt s = false -> ctxPs s = false -> ed s i p <> EExit /\ (done (ph s) c -> past s c k -> In p (r i) \/ exists v, ed s i p = EHold v));
  iBc : forall c, (forall v k, bc s c = BSend v k -> evals g c v /\ k < length (subs g c) /\ done (ph s) c) /\
    (ctxExt s = false -> ctxPs s = false -> hasOut g c = true -> bc s c <> BExit) }.

Definition fine : Prop := acyclic g /\ roomy g.

(** Counting. *)
Lemma unreported_ext f f' : (forall i, i < length g -> isRep (f i) = isRep (f' i)) -> unreported f = unreported f'.
Proof. intro H. unfold unreported. f_equal. apply filter_ext_in. intros i Hi. apply in_seq in Hi. rewrite H by lia. reflexivity. Qed.
Lemma filter_length_upd (P Q : nat -> bool) i l : NoDup l -> In i l -> P i = true -> Q i = false -> (forall j, j <> i -> P j = Q j) -> length (filter P l) = S (length (filter Q l)).
Proof.
  induction l as [|x l IH]; intros ND HI HP HQ HE; [contradiction|]. inversion_clear ND as [|? ? N1 N2]. destruct HI as [->|HI].
  - cbn [filter]. rewrite HP, HQ. cbn [length]. f_equal. f_equal. apply filter_ext_in. intros j Hj. apply HE. intro; subst; contradiction.
  - cbn [filter]. assert (x <> i) by (intro; subst; contradiction). rewrite (HE x) by assumption. destruct (Q x); cbn [length]; rewrite (IH N2 HI HP HQ HE); reflexivity.
Qed.
Lemma unreported_report f i e : i < length g -> isRep (f i) = false -> unreported f = S (unreported (upd f i (Fin e true))).
Proof.
  intros Hi H. unfold unreported. apply (filter_length_upd _ _ i); [apply seq_NoDup|apply in_seq; lia|rewrite H; reflexivity|rewrite upd_same; reflexivity|]. intros j Hj. rewrite upd_other by exact Hj. reflexivity.
Qed.
Lemma unreported_zero f : unreported f = 0 -> forall i, i < length g -> exists e, f i = Fin e true.
Proof.
  intros H i Hi. unfold unreported in H. apply length_zero_iff_nil in H. destruct (isRep (f i)) eqn:E.
  - destruct (f i) as [| | | |e [|]]; try discriminate. exists e. reflexivity.
  - exfalso. assert (K : In i (filter (fun i => negb (isRep (f i))) (seq 0 (length g)))) by (apply filter_In; split; [apply in_seq; lia|rewrite E; reflexivity]). rewrite H in K. contradiction.
Qed.
Lemma lt_len i (n : node) : nth_error g i = Some n -> i < length g.
Proof. intro H. apply nth_error_Some. congruence. Qed.

Lemma inv_start ins0 out0 b : sized g ins0 -> Inv (fun _ => []) (start g ins0 out0 b).
Proof.
  intros HS. constructor; cbn [start ph ins out bc ed mn ctxExt ctxNodes ctxPs].
  - intros i v cs E. rewrite E. repeat split; discriminate.
  - intros i a f cs E. rewrite (HS _ _ _ _ E). split; [reflexivity|]. split; [constructor|]. split; [intros p []|]. split; [reflexivity|]. split; [discriminate|]. split; [discriminate|]. intros [K|[b' K]]; discriminate.
  - discriminate.
  - unfold unreported. cbn [isRep negb]. split; [|repeat split; try discriminate; intro K; exfalso; apply K; reflexivity].
    assert (F : forall l : list nat, filter (fun _ => true) l = l) by (induction l as [|x l IH]; cbn [filter]; congruence). rewrite F, seq_length. reflexivity.
  - intros i a f cs p c k E Hp Hk. split; [|split].
    + intros [[]|[v K]]; discriminate.
    + discriminate.
    + intros _ _. split; [discriminate|]. intros [b' K]. discriminate.
  - intro c. split; [|].
    + intros v k K. destruct (hasOut g c); discriminate.
    + intros _ _ -> . discriminate.
Qed.

(** A step that only changes the phase of a node [i] that has not published. *)
Lemma edge_phase r s s' i x : Inv r s -> ph s' = upd (ph s) i x -> bc s' = bc s -> ed s' = ed s -> ctxExt s' = ctxExt s -> ctxPs s' = ctxPs s -> ~ done (ph s) i -> ~ (exists b, x = Fin None b) \/ hasOut g i = false ->
  acyclic g ->
  (forall j a f cs p c k, nth_error g j = Some (N (Op a f) cs) -> nth_error cs p = Some c -> nth_error (subs g c) k = Some (j, p) ->
    ((In p (r j) \/ exists v, ed s' j p = EHold v) -> done (ph s') c /\ past s' c k) /\
    (forall v, ed s' j p = EHold v -> evals g c v /\ ~ In p (r j)) /\
    (ctxExt s' = false -> ctxPs s' = false -> ed s' j p <> EExit /\ (done (ph s') c -> past s' c k -> In p (r j) \/ exists v, ed s' j p = EHold v))) /\
  (forall c, (forall v k, bc s' c = BSend v k -> evals g c v /\ k < length (subs g c) /\ done (ph s') c) /\
    (ctxExt s' = false -> ctxPs s' = false -> hasOut g c = true -> bc s' c <> BExit)).
Proof.
  intros I E1 E2 E3 E4 E5 ND NX [rank AC]. unfold past in *. rewrite E1, E2, E3, E4, E5.
  assert (DN : forall c, done (ph s) c -> done (upd (ph s) i x) c).
  { intros c [b D]. exists b. rewrite upd_other; [exact D|]. intro; subst. apply ND. exists b. exact D. }
  split.
  - intros j a f cs p c k Hj Hp Hk. destruct (iEdge _ _ I j a f cs p c k Hj Hp Hk) as [F1 [F2 F3]]. unfold past in *. split; [|split].
    + intro H. destruct (F1 H) as [G1 G2]. split; [apply DN, G1|exact G2].
    + exact F2.
    + intros X P. destruct (F3 X P) as [G1 G2]. split; [exact G1|]. intros [b D] K. apply G2; [|exact K]. destruct (Nat.eq_dec c i) as [->|N]; [|exists b; rewrite upd_other in D by exact N; exact D].
      exfalso. rewrite upd_same in D. destruct NX as [NX|NX]; [apply NX; exists b; exact D|]. destruct (AC j a f cs i Hj (nth_error_In _ _ Hp)) as [Hi _]. rewrite (parent_out i j p a f cs Hi Hj Hp) in NX. discriminate.
  - intro c. destruct (iBc _ _ I c) as [F1 F2]. split; [|exact F2]. intros v k K. destruct (F1 v k K) as [G1 [G2 G3]]. auto.
Qed.

Lemma received_bound (cs : list nat) (l : list V) (r : list nat) : NoDup r ->
  (forall p, In p r -> exists c v, nth_error cs p = Some c /\ nth_error l p = Some v /\ evals g c v) -> length r <= length cs.
Proof.
  intros ND H. rewrite <- (seq_length (length cs) 0). apply NoDup_incl_length; [exact ND|]. intros p Hp. destruct (H p Hp) as [c [v [E _]]]. apply in_seq. split; [lia|]. cbn. apply nth_error_Some. congruence.
Qed.
Definition mainOk (s : st) : Prop :=
  match mn s with
  | Loop t errs => t = unreported (ph s) /\ ctxPs s = false /\ (forall i e, i < length g -> ph s i = Fin (Some e) true -> errs <> []) /\
                   (errs <> [] -> ctxNodes s = true) /\ (errs <> [] -> ctxExt s = true \/ bad) /\ (ctxNodes s = true -> ctxExt s = true \/ bad)
  | Ended errs => (forall i, i < length g -> exists e, ph s i = Fin e true) /\ ctxPs s = true /\ (forall i e, i < length g -> ph s i = Fin (Some e) true -> errs <> []) /\
                  (errs <> [] -> ctxExt s = true \/ bad)
  end.
Lemma main_phase (s s' : st) i x : mainOk s -> i < length g -> ph s' = upd (ph s) i x -> mn s' = mn s -> ctxExt s' = ctxExt s -> ctxNodes s' = ctxNodes s -> ctxPs s' = ctxPs s ->
  isRep (ph s i) = false -> isRep x = false -> mainOk s'.
Proof.
  intros H Hi E1 E2 E3 E4 E5 R1 R2. unfold mainOk in *. rewrite E1, E2, E3, E4, E5. destruct (mn s) as [t errs|errs].
  - destruct H as [H1 [H2 [H3 [H4 [H5 H6]]]]]. split; [|split; [exact H2|split; [|auto]]].
    + rewrite H1. apply unreported_ext. intros j Hj. destruct (Nat.eq_dec j i) as [->|N]; [rewrite upd_same; congruence|rewrite upd_other by exact N; reflexivity].
    + intros j e Hj K. destruct (Nat.eq_dec j i) as [->|N]; [rewrite upd_same in K; subst x; discriminate|]. rewrite upd_other in K by exact N. eapply H3; eassumption.
  - exfalso. destruct H as [H1 _]. destruct (H1 i Hi) as [e He]. rewrite He in R1. discriminate.
Qed.
(** The context of the nodes is only done for a reason. *)
Lemma ctx_reason r s i : Inv r s -> i < length g -> isRep (ph s i) = false -> ctxExt s || ctxNodes s = true -> ctxExt s = true \/ bad.
Proof.
  intros I Hi R H. destruct (ctxExt s) eqn:X; [left; reflexivity|]. cbn [orb] in H. pose proof (iMain _ _ I) as M. destruct (mn s).
  - destruct M as [_ [_ [_ [_ [_ M]]]]]. destruct (M H) as [K|K]; [congruence|right; exact K].
  - destruct M as [M _]. destruct (M i Hi) as [e E]. rewrite E in R. discriminate.
Qed.
Lemma all_received (cs : list nat) (l : list V) (r : list nat) : NoDup r -> length cs <= length r -> length l = length cs ->
  (forall p, In p r -> exists c v, nth_error cs p = Some c /\ nth_error l p = Some v /\ evals g c v) -> Forall2 (evals g) cs l.
Proof.
  intros ND Lr Ll H. assert (IN : incl r (seq 0 (length cs))).
  { intros p Hp. destruct (H p Hp) as [c [v [E _]]]. apply in_seq. split; [lia|]. cbn. apply nth_error_Some. congruence. }
  assert (IR : incl (seq 0 (length cs)) r) by (apply NoDup_length_incl; [exact ND|rewrite seq_length; lia|exact IN]).
  assert (A : forall p, p < length cs -> exists c v, nth_error cs p = Some c /\ nth_error l p = Some v /\ evals g c v) by (intros p Hp; apply H, IR, in_seq; lia).
  clear - Ll A. revert l Ll A. induction cs as [|c cs IH]; intros [|v l] Ll A; try discriminate; constructor.
  - destruct (A 0 ltac:(cbn; lia)) as [c' [v' [E1 [E2 E3]]]]. cbn in E1, E2. injection E1 as ->. injection E2 as ->. exact E3.
  - apply IH; [cbn in Ll; lia|]. intros p Hp. destruct (A (S p) ltac:(cbn; lia)) as [c' [v' K]]. exists c', v'. exact K.
Qed.
Ltac pick j i := destruct (Nat.eq_dec j i) as [->|?]; [try rewrite !upd_same in *|try rewrite !upd_other in * by assumption].

Lemma inv_step r s l s' : fine -> Inv r s -> fire g l s = Some s' -> exists r', Inv r' s'.
Proof.
  intros [AC SAT] I H. destruct s as [ph0 ins0 out0 bc0 ed0 mn0 x0 n0 p0]. cbn [fire] in H.
  pose proof (iIn _ _ I) as JI. pose proof (iOp _ _ I) as JO. pose proof (iFail _ _ I) as JF. pose proof (iMain _ _ I) as JM. pose proof (iEdge _ _ I) as JE. pose proof (iBc _ _ I) as JB.
  cbn [ph ins out bc ed mn ctxExt ctxNodes ctxPs] in *.
  destruct l as [i|i p|i|i|i|c|i|c|i p|].
  - (* LStart *)
    destruct (nth_error g i) as [nd|] eqn:E; [|discriminate]. destruct (ph0 i) eqn:P; try discriminate. injection H as <-. exists r. pose proof (lt_len _ _ E) as Hi.
    assert (ND : ~ done ph0 i) by (intros [b K]; congruence).
    match goal with |- Inv r ?S => set (s' := S) end.
    destruct (edge_phase r _ s' i (if isOp nd then Recv 0 else Emit) I eq_refl eq_refl eq_refl eq_refl eq_refl ND) as [EE EB]; [left; intros [b K]; destruct (isOp nd); discriminate|exact AC|].
    constructor; cbn [s' ph ins out bc ed mn ctxExt ctxNodes ctxPs] in *.
    + intros j v cs Ej. destruct (JI j v cs Ej) as [K1 [K2 K3]]. split; [exact K1|]. pick j i; [|auto]. assert (nd = N (Input v) cs) by congruence. subst nd. cbn [isOp kd]. split; discriminate.
    + intros j a f cs Ej. destruct (JO j a f cs Ej) as [K1 [K2 [K3 [K4 [K5 [K6 K7]]]]]]. split; [exact K1|]. split; [exact K2|]. split; [exact K3|]. unfold done. pick j i; [|auto]. assert (nd = N (Op a f) cs) by congruence. subst nd. cbn [isOp kd].
      split; [discriminate|]. split; [intros c Ec; injection Ec as <-; rewrite (K4 P); split; [reflexivity|]; destruct (SAT _ _ _ _ Ej); lia|]. split; [discriminate|]. intros [K|[b K]]; discriminate.
    + intros j e b Hj K. pick j i; [destruct (isOp nd); discriminate|eapply JF; eassumption].
    + apply (main_phase (St ph0 ins0 out0 bc0 ed0 mn0 x0 n0 p0) s' i (if isOp nd then Recv 0 else Emit)); try reflexivity; [exact JM|exact Hi|cbn [ph]; rewrite P; reflexivity|destruct (isOp nd); reflexivity].
    + exact EE.
    + exact EB.
  - (* LInput *)
    destruct (nth_error g i) as [[[v0|a f] cs]|] eqn:E; try discriminate. destruct (ph0 i) as [|c0| | |] eqn:P; try discriminate. destruct (ed0 i p) as [|v|] eqn:D; try discriminate. destruct (Nat.ltb_spec p (length cs)) as [Hp|]; [|discriminate]. pose proof (lt_len _ _ E) as Hi.
    destruct (SAT _ _ _ _ E) as [A1 A2]. destruct (Nat.leb_spec a p) as [K|_]; [lia|]. injection H as <-.
    destruct (nth_error cs p) as [c|] eqn:Ec; [|apply nth_error_None in Ec; lia].
    assert (IS : In (i, p) (subs g c)) by (apply subs_in; exists a, f, cs; auto). destruct (In_nth_error _ _ IS) as [k Hk].
    destruct (JE i a f cs p c k E Ec Hk) as [F1 [F2 F3]]. destruct (F2 v D) as [Ev NI]. destruct (F1 (or_intror (ex_intro _ v D))) as [Dc Pc].
    destruct (JO i a f cs E) as [K1 [K2 [K3 [K4 [K5 [K6 K7]]]]]]. destruct (K5 c0 P) as [L1 L2].
    exists (upd r i (p :: r i)). set (x := if S c0 <? a then Recv (S c0) else Comp).
    assert (XF : forall e b, x <> Fin e b) by (intros e b; unfold x; destruct (S c0 <? a); discriminate).
    assert (DI : forall c', done (upd ph0 i x) c' <-> done ph0 c').
    { intro c'. unfold done. pick c' i; [|reflexivity]. split; intros [b Kb]; [exfalso; eapply XF; exact Kb|congruence]. }
    constructor; cbn [ph ins out bc ed mn ctxExt ctxNodes ctxPs] in *; fold x.
    + intros j w cs' Ej. destruct (JI j w cs' Ej) as [G1 [G2 G3]]. split; [exact G1|]. pick j i; [congruence|auto].
    + intros j a' f' cs' Ej. destruct (Nat.eq_dec j i) as [->|N].
      * rewrite !upd_same. assert (N (Op a f) cs = N (Op a' f') cs') by congruence. injection H as <- <- <-. rewrite len_setV. split; [exact K1|]. split; [constructor; assumption|]. split; [|split; [|split; [|split]]].
        -- intros q [<-|Hq]; [exists c, v; rewrite nth_setV_same by lia; auto|]. destruct (K3 q Hq) as [c' [v' [G1 [G2 G3]]]]. exists c', v'. rewrite nth_setV_other; [auto|]. intro; subst. contradiction.
        -- unfold x. destruct (S c0 <? a); discriminate.
        -- unfold x. destruct (Nat.ltb_spec (S c0) a); [|discriminate]. intros c1 Q. injection Q as <-. cbn [length]. lia.
        -- unfold x. destruct (Nat.ltb_spec (S c0) a); [discriminate|]. intros _. cbn [length]. lia.
        -- intros [Q|Q]; [unfold x in Q; destruct (S c0 <? a); discriminate|]. apply DI in Q. destruct Q as [b Q]. congruence.
      * rewrite !upd_other by exact N. rewrite DI. apply (JO j _ f' cs' Ej).
    + intros j e b Hj Kf. pick j i; [exfalso; eapply XF; exact Kf|eapply JF; eassumption].
    + apply (main_phase (St ph0 ins0 out0 bc0 ed0 mn0 x0 n0 p0) (St (upd ph0 i x) (upd ins0 i (setV (ins0 i) p v)) out0 bc0 (upd2 ed0 i p EIdle) mn0 x0 n0 p0) i x); try reflexivity; [exact JM|exact Hi|cbn [ph]; rewrite P; reflexivity|unfold x; destruct (S c0 <? a); reflexivity].
    + intros j a' f' cs' q c' k' Ej Eq Ek. destruct (JE j a' f' cs' q c' k' Ej Eq Ek) as [G1 [G2 G3]]. unfold past in *. cbn [bc] in *. rewrite !DI.
      destruct (Nat.eq_dec j i) as [->|N]; [destruct (Nat.eq_dec q p) as [->|Nq]|].
      * rewrite upd2_same, upd_same. assert (c' = c) by congruence. subst c'. assert (k' = k) by (eapply subs_index; eassumption). subst k'. split; [intros _; auto|]. split; [discriminate|]. intros X Y. split; [discriminate|]. intros _ _. left. left. reflexivity.
      * rewrite upd2_other by congruence. rewrite upd_same. split; [|split].
        -- intros [[Q|Q]|Q]; [congruence|apply G1; left; exact Q|apply G1; right; exact Q].
        -- intros w Q. destruct (G2 w Q) as [Q1 Q2]. split; [exact Q1|]. intros [Q3|Q3]; [congruence|contradiction].
        -- intros X Y. destruct (G3 X Y) as [Q1 Q2]. split; [exact Q1|]. intros R1 R2. destruct (Q2 R1 R2) as [Q|Q]; [left; right; exact Q|right; exact Q].
      * rewrite upd2_other by congruence. rewrite upd_other by exact N. auto.
    + intro c'. destruct (JB c') as [G1 G2]. split; [|exact G2]. intros w k' Q. destruct (G1 w k' Q) as [Q1 [Q2 Q3]]. rewrite DI. auto.
  - (* LComp *)
    destruct (nth_error g i) as [[[v0|a f] cs]|] eqn:E; try discriminate. destruct (ph0 i) eqn:P; try discriminate. pose proof (lt_len _ _ E) as Hi.
    destruct (JO i a f cs E) as [K1 [K2 [K3 [K4 [K5 [K6 K7]]]]]]. destruct (SAT _ _ _ _ E) as [A1 A2].
    pose proof (received_bound cs (ins0 i) (r i) K2 K3) as RB. specialize (K6 P). assert (F2 : Forall2 (evals g) cs (ins0 i)) by (apply (all_received cs (ins0 i) (r i)); [exact K2|lia|lia|exact K3]).
    assert (ND : ~ done ph0 i) by (intros [b K]; congruence). injection H as <-. exists r.
    destruct (f (ins0 i)) as [v|] eqn:F.
    + match goal with |- Inv r ?S => set (s' := S) end.
      destruct (edge_phase r _ s' i Emit I eq_refl eq_refl eq_refl eq_refl eq_refl ND) as [EE EB]; [left; intros [b K]; discriminate|exact AC|].
      constructor; cbn [s' ph ins out bc ed mn ctxExt ctxNodes ctxPs] in *.
      * intros j w cs' Ej. destruct (JI j w cs' Ej) as [G1 [G2 G3]]. pick j i; [congruence|auto].
      * intros j a' f' cs' Ej. destruct (JO j a' f' cs' Ej) as [G1 [G2 [G3 [G4 [G5 [G6 G7]]]]]]. split; [exact G1|]. split; [exact G2|]. split; [exact G3|]. unfold done. pick j i; [|auto]. split; [discriminate|]. split; [discriminate|]. split; [discriminate|]. intros _. exact (ev_op g i a f cs (ins0 i) v E F2 F).
      * intros j e b Hj K. pick j i; [discriminate|eapply JF; eassumption].
      * apply (main_phase (St ph0 ins0 out0 bc0 ed0 mn0 x0 n0 p0) s' i Emit); try reflexivity; [exact JM|exact Hi|cbn [ph]; rewrite P; reflexivity].
      * exact EE.
      * exact EB.
    + match goal with |- Inv r ?S => set (s' := S) end.
      destruct (edge_phase r _ s' i (Fin (Some EDo) false) I eq_refl eq_refl eq_refl eq_refl eq_refl ND) as [EE EB]; [left; intros [b K]; discriminate|exact AC|].
      assert (BD : bad) by (exists i, a, f, cs, (ins0 i); auto).
      constructor; cbn [s' ph ins out bc ed mn ctxExt ctxNodes ctxPs] in *.
      * intros j w cs' Ej. destruct (JI j w cs' Ej) as [G1 [G2 G3]]. pick j i; [congruence|auto].
      * intros j a' f' cs' Ej. destruct (JO j a' f' cs' Ej) as [G1 [G2 [G3 [G4 [G5 [G6 G7]]]]]]. split; [exact G1|]. split; [exact G2|]. split; [exact G3|]. unfold done. pick j i; [|auto]. split; [discriminate|]. split; [discriminate|]. split; [discriminate|]. intros [K|[b K]]; discriminate.
      * intros j e b Hj K. right. exact BD.
      * apply (main_phase (St ph0 ins0 out0 bc0 ed0 mn0 x0 n0 p0) s' i (Fin (Some EDo) false)); try reflexivity; [exact JM|exact Hi|cbn [ph]; rewrite P; reflexivity].
      * exact EE.
      * exact EB.
  - (* LEmit *)
    destruct (nth_error g i) as [nd|] eqn:E; [|discriminate]. destruct (ph0 i) eqn:P; try discriminate. pose proof (lt_len _ _ E) as Hi. assert (ND : ~ done ph0 i) by (intros [b K]; congruence).
    assert (EV : evals g i (out0 i)).
    { destruct nd as [[v|a f] cs]; [destruct (JI i v cs E) as [G _]; eapply ev_input; rewrite G; exact E|]. destruct (JO i a f cs E) as [_ [_ [_ [_ [_ [_ G]]]]]]. apply G. left. exact P. }
    assert (JO' : forall j a f cs, nth_error g j = Some (N (Op a f) cs) -> length (ins0 j) = a /\ NoDup (r j) /\
      (forall p, In p (r j) -> exists c v, nth_error cs p = Some c /\ nth_error (ins0 j) p = Some v /\ evals g c v) /\
      (upd ph0 i (Fin None false) j = Start -> r j = []) /\ (forall c, upd ph0 i (Fin None false) j = Recv c -> length (r j) = c /\ c < a) /\ (upd ph0 i (Fin None false) j = Comp -> length (r j) = a) /\
      (upd ph0 i (Fin None false) j = Emit \/ done (upd ph0 i (Fin None false)) j -> evals g j (out0 j))).
    { intros j a' f' cs' Ej. destruct (JO j a' f' cs' Ej) as [G1 [G2 [G3 [G4 [G5 [G6 G7]]]]]]. split; [exact G1|]. split; [exact G2|]. split; [exact G3|]. unfold done in *. pick j i; [|auto]. split; [discriminate|]. split; [discriminate|]. split; [discriminate|]. intros _. exact EV. }
    assert (JI' : forall j v cs, nth_error g j = Some (N (Input v) cs) -> out0 j = v /\ (forall c, upd ph0 i (Fin None false) j <> Recv c) /\ upd ph0 i (Fin None false) j <> Comp).
    { intros j w cs' Ej. destruct (JI j w cs' Ej) as [G1 [G2 G3]]. split; [exact G1|]. pick j i; [split; discriminate|auto]. }
    assert (JF' : forall j e b, j < length g -> upd ph0 i (Fin None false) j = Fin (Some e) b -> x0 = true \/ bad).
    { intros j e b Hj K. pick j i; [discriminate|eapply JF; eassumption]. }
    destruct (hasOut g i) eqn:HO.
    + destruct (bc0 i) eqn:B; try discriminate. injection H as <-. exists r.
      assert (DI : forall c, done ph0 c -> done (upd ph0 i (Fin None false)) c) by (intros c [b K]; exists b; rewrite upd_other; [exact K|]; intro; subst; apply ND; exists b; exact K).
      assert (DJ : forall c, c <> i -> done (upd ph0 i (Fin None false)) c -> done ph0 c) by (intros c N [b K]; exists b; rewrite upd_other in K by exact N; exact K).
      constructor; cbn [ph ins out bc ed mn ctxExt ctxNodes ctxPs] in *.
      * exact JI'.
      * exact JO'.
      * exact JF'.
      * apply (main_phase (St ph0 ins0 out0 bc0 ed0 mn0 x0 n0 p0) (St (upd ph0 i (Fin None false)) ins0 out0 (upd bc0 i (bnext g i (out0 i) 0)) ed0 mn0 x0 n0 p0) i (Fin None false)); try reflexivity; [exact JM|exact Hi|cbn [ph]; rewrite P; reflexivity].
      * intros j a' f' cs' q c' k' Ej Eq Ek. destruct (JE j a' f' cs' q c' k' Ej Eq Ek) as [G1 [G2 G3]]. unfold past in *. cbn [bc] in *.
        destruct (Nat.eq_dec c' i) as [->|N].
        -- assert (LK : k' < length (subs g i)) by (apply nth_error_Some; congruence). rewrite upd_same. unfold bnext. destruct (Nat.ltb_spec 0 (length (subs g i))) as [_|]; [|lia]. split; [|split; [exact G2|]].
           ++ intro Q. destruct (G1 Q) as [Q1 _]. contradiction.
           ++ intros X Y. destruct (G3 X Y) as [Q1 Q2]. split; [exact Q1|]. intros _ Q. specialize (Q _ _ eq_refl). lia.
        -- rewrite upd_other by exact N. split; [intro Q; destruct (G1 Q); auto|]. split; [exact G2|]. intros X Y. destruct (G3 X Y) as [Q1 Q2]. split; [exact Q1|]. intros R1 R2. apply Q2; auto.
      * intro c'. destruct (JB c') as [G1 G2]. pick c' i.
        -- split; [|intros _ _ _; unfold bnext; destruct (_ <? _); discriminate]. intros w k' Q. unfold bnext in Q. destruct (Nat.ltb_spec 0 (length (subs g i))); [|discriminate]. injection Q as <- <-. split; [exact EV|]. split; [assumption|]. exists false. apply upd_same.
        -- split; [|exact G2]. intros w k' Q. destruct (G1 w k' Q) as [Q1 [Q2 Q3]]. auto.
    + injection H as <-. exists r. match goal with |- Inv r ?S => set (s' := S) end.
      destruct (edge_phase r _ s' i (Fin None false) I eq_refl eq_refl eq_refl eq_refl eq_refl ND) as [EE EB]; [right; exact HO|exact AC|].
      constructor; cbn [s' ph ins out bc ed mn ctxExt ctxNodes ctxPs] in *; [exact JI'|exact JO'|exact JF'| |exact EE|exact EB].
      apply (main_phase (St ph0 ins0 out0 bc0 ed0 mn0 x0 n0 p0) s' i (Fin None false)); try reflexivity; [exact JM|exact Hi|cbn [ph]; rewrite P; reflexivity].
  - (* LAbort *)
    destruct (x0 || n0) eqn:CX; [|discriminate]. destruct (nth_error g i) as [nd|] eqn:E; [|discriminate]. pose proof (lt_len _ _ E) as Hi.
    assert (Q : exists Hs : isRep (ph0 i) = false, ~ done ph0 i /\ s' = St (upd ph0 i (Fin (Some EDone) false)) ins0 out0 bc0 ed0 mn0 x0 n0 p0).
    { destruct (ph0 i) eqn:P; try discriminate; [|destruct (hasOut g i); [|discriminate]]; injection H as <-; (exists eq_refl; split; [intros [b K]; congruence|reflexivity]). }
    destruct Q as [NR [ND ->]]. exists r. match goal with |- Inv r ?S => set (s' := S) end.
    pose proof (ctx_reason r _ i I Hi NR CX) as RS. cbn [ctxExt] in RS.
    destruct (edge_phase r _ s' i (Fin (Some EDone) false) I eq_refl eq_refl eq_refl eq_refl eq_refl ND) as [EE EB]; [left; intros [b K]; discriminate|exact AC|].
    constructor; cbn [s' ph ins out bc ed mn ctxExt ctxNodes ctxPs] in *.
    + intros j w cs' Ej. destruct (JI j w cs' Ej) as [G1 [G2 G3]]. split; [exact G1|]. pick j i; [split; discriminate|auto].
    + intros j a' f' cs' Ej. destruct (JO j a' f' cs' Ej) as [G1 [G2 [G3 [G4 [G5 [G6 G7]]]]]]. split; [exact G1|]. split; [exact G2|]. split; [exact G3|]. unfold done. pick j i; [|auto]. split; [discriminate|]. split; [discriminate|]. split; [discriminate|]. intros [K|[b K]]; discriminate.
    + intros j e b Hj K. exact RS.
    + apply (main_phase (St ph0 ins0 out0 bc0 ed0 mn0 x0 n0 p0) s' i (Fin (Some EDone) false)); try reflexivity; [exact JM|exact Hi|exact NR].
    + exact EE.
    + exact EB.
  - (* LDeliver *)
    destruct (nth_error g c); [|discriminate]. destruct (bc0 c) as [|v k|] eqn:B; try discriminate. destruct (nth_error (subs g c) k) as [[i p]|] eqn:Ek; [|discriminate]. destruct (ed0 i p) eqn:D; try discriminate. injection H as <-. exists r.
    destruct (JB c) as [B1 B2]. destruct (B1 v k B) as [EV [Lk DC]].
    pose proof (nth_error_In _ _ Ek) as IS. apply subs_in in IS. destruct IS as [a [f [cs [E Ec]]]]. destruct (JE i a f cs p c k E Ec Ek) as [F1 [F2 F3]].
    assert (NI : ~ In p (r i)) by (intro K; destruct (F1 (or_introl K)) as [_ K2]; specialize (K2 v k B); lia).
    constructor; cbn [ph ins out bc ed mn ctxExt ctxNodes ctxPs] in *; [exact JI|exact JO|exact JF|exact JM| |].
    + intros j a' f' cs' q c' k' Ej Eq Ek'. destruct (JE j a' f' cs' q c' k' Ej Eq Ek') as [G1 [G2 G3]]. unfold past in *. cbn [bc] in *.
      destruct (Nat.eq_dec c' c) as [->|N].
      * rewrite upd_same. assert (PS : (forall v' k'', bnext g c v (S k) = BSend v' k'' -> k' < k'') <-> k' < S k \/ length (subs g c) <= S k).
        { unfold bnext. destruct (Nat.ltb_spec (S k) (length (subs g c))); split; intro Q; [left; apply (Q v (S k) eq_refl)|destruct Q; [|lia]; intros v' k'' Q; injection Q as <- <-; assumption|right; lia|discriminate]. }
        rewrite PS. assert (LK' : k' < length (subs g c)) by (apply nth_error_Some; congruence).
        destruct (Nat.eq_dec k' k) as [->|Nk].
        -- assert (QQ : (j, q) = (i, p)) by congruence. injection QQ as -> ->. rewrite upd2_same. split; [intros _; split; [exact DC|left; lia]|]. split; [intros w Q; injection Q as <-; auto|]. intros X Y. split; [discriminate|]. intros _ _. right. exists v. reflexivity.
        -- assert (NQ : (j, q) <> (i, p)) by (intro K; apply Nk; apply (subs_index c _ _ (i, p)); congruence). rewrite upd2_other by exact NQ. split; [|split; [exact G2|]].
           ++ intro Q. destruct (G1 Q) as [Q1 Q2]. split; [exact Q1|]. left. specialize (Q2 v k B). lia.
           ++ intros X Y. destruct (G3 X Y) as [Q1 Q2]. split; [exact Q1|]. intros R1 R2. apply Q2; [exact R1|]. intros v' k'' Q. assert (k'' = k) by congruence. subst k''. lia.
      * rewrite upd_other by exact N. rewrite upd2_other; [auto|]. intro K. injection K as -> ->. congruence.
    + intro c'. destruct (JB c') as [G1 G2]. pick c' c; [|auto]. split; [|intros _ _ _; unfold bnext; destruct (_ <? _); discriminate].
      intros w k' Q. unfold bnext in Q. destruct (Nat.ltb_spec (S k) (length (subs g c))); [|discriminate]. injection Q as <- <-. auto.
  - (* LReport *)
    destruct (nth_error g i) as [nd|] eqn:E; [|discriminate]. destruct (ph0 i) as [| | | |e b] eqn:P; try discriminate. destruct b; [discriminate|]. destruct mn0 as [t errs|]; [|discriminate]. pose proof (lt_len _ _ E) as Hi.
    destruct JM as [M1 [M2 [M3 [M4 [M5 M6]]]]]. assert (NR : isRep (ph0 i) = false) by (rewrite P; reflexivity).
    assert (CNT : t = S (unreported (upd ph0 i (Fin e true)))) by (rewrite M1; apply unreported_report; assumption).
    set (ph1 := upd ph0 i (Fin e true)) in *. set (errs' := match e with Some x => errs ++ [(i, x)] | None => errs end) in *. set (n' := match e with Some _ => true | None => n0 end) in *.
    assert (DI : forall c, done ph1 c <-> done ph0 c).
    { intro c. unfold done, ph1. pick c i; [|reflexivity]. rewrite P. split; intros [b K]; injection K as -> _; eexists; reflexivity. }
    assert (JI' : forall j v cs, nth_error g j = Some (N (Input v) cs) -> out0 j = v /\ (forall c, ph1 j <> Recv c) /\ ph1 j <> Comp).
    { intros j w cs' Ej. destruct (JI j w cs' Ej) as [G1 [G2 G3]]. split; [exact G1|]. unfold ph1. pick j i; [split; discriminate|auto]. }
    assert (JO' : forall j a f cs, nth_error g j = Some (N (Op a f) cs) -> length (ins0 j) = a /\ NoDup (r j) /\
      (forall p, In p (r j) -> exists c v, nth_error cs p = Some c /\ nth_error (ins0 j) p = Some v /\ evals g c v) /\
      (ph1 j = Start -> r j = []) /\ (forall c, ph1 j = Recv c -> length (r j) = c /\ c < a) /\ (ph1 j = Comp -> length (r j) = a) /\
      (ph1 j = Emit \/ done ph1 j -> evals g j (out0 j))).
    { intros j a' f' cs' Ej. destruct (JO j a' f' cs' Ej) as [G1 [G2 [G3 [G4 [G5 [G6 G7]]]]]]. split; [exact G1|]. split; [exact G2|]. split; [exact G3|]. rewrite DI. unfold ph1. pick j i; [|auto]. split; [discriminate|]. split; [discriminate|]. split; [discriminate|]. intros [K|K]; [discriminate|]. apply G7. right. exact K. }
    assert (JF' : forall j e' b, j < length g -> ph1 j = Fin (Some e') b -> x0 = true \/ bad).
    { intros j e' b Hj K. unfold ph1 in K. pick j i; [|eapply JF; eassumption]. injection K as -> _. eapply JF; eassumption. }
    assert (ER : errs' <> [] -> x0 = true \/ bad).
    { intro K. unfold errs' in K. destruct e as [e1|]; [|apply M5, K]. eapply JF; [exact Hi|exact P]. }
    assert (EN : forall j e', j < length g -> ph1 j = Fin (Some e') true -> errs' <> []).
    { intros j e' Hj K. unfold ph1 in K. unfold errs'. pick j i; [injection K as ->; destruct errs; discriminate|]. specialize (M3 j e' Hj K). destruct e; [destruct errs; discriminate|exact M3]. }
    exists r. injection H as <-. destruct (Nat.eqb_spec (t - 1) 0) as [T|T].
    + constructor; cbn [ph ins out bc ed mn ctxExt ctxNodes ctxPs] in *; [exact JI'|exact JO'|exact JF'| | |].
      * split; [apply unreported_zero; fold ph1; lia|]. split; [reflexivity|]. split; [exact EN|exact ER].
      * intros j a' f' cs' q c' k' Ej Eq Ek'. destruct (JE j a' f' cs' q c' k' Ej Eq Ek') as [G1 [G2 G3]]. unfold past in *. cbn [bc] in *. rewrite DI. split; [exact G1|]. split; [exact G2|]. discriminate.
      * intro c'. destruct (JB c') as [G1 G2]. split; [intros w k'' Q; rewrite DI; exact (G1 w k'' Q)|]. discriminate.
    + constructor; cbn [ph ins out bc ed mn ctxExt ctxNodes ctxPs] in *; [exact JI'|exact JO'|exact JF'| | |].
      * split; [lia|]. split; [exact M2|]. split; [exact EN|]. split; [|split; [exact ER|]].
        -- unfold n', errs'. destruct e; [reflexivity|exact M4].
        -- unfold n'. destruct e; [|exact M6]. intros _. eapply JF; [exact Hi|exact P].
      * intros j a' f' cs' q c' k' Ej Eq Ek'. destruct (JE j a' f' cs' q c' k' Ej Eq Ek') as [G1 [G2 G3]]. unfold past in *. cbn [bc] in *. rewrite DI. auto.
      * intro c'. destruct (JB c') as [G1 G2]. split; [intros w k'' Q; rewrite DI; exact (G1 w k'' Q)|exact G2].
  - (* LExitB *)
    destruct (x0 || p0) eqn:CX; [|discriminate]. destruct (c <? length g); [|discriminate]. cbn [andb] in H. assert (Q : s' = St ph0 ins0 out0 (upd bc0 c BExit) ed0 mn0 x0 n0 p0) by (destruct (bc0 c); congruence). subst s'. exists r. clear H.
    assert (NL : ~ (x0 = false /\ p0 = false)) by (intros [-> ->]; discriminate).
    constructor; cbn [ph ins out bc ed mn ctxExt ctxNodes ctxPs] in *; [exact JI|exact JO|exact JF|exact JM| |].
    + intros j a' f' cs' q c' k' Ej Eq Ek'. destruct (JE j a' f' cs' q c' k' Ej Eq Ek') as [G1 [G2 G3]]. unfold past in *. cbn [bc] in *. split; [|split; [exact G2|intros X Y; exfalso; auto]]. intro Q. destruct (G1 Q) as [Q1 Q2]. split; [exact Q1|]. pick c' c; [discriminate|exact Q2].
    + intro c'. destruct (JB c') as [G1 G2]. split; [|intros X Y; exfalso; auto]. intros w k' Q. pick c' c; [discriminate|auto].
  - (* LExitE *)
    destruct (x0 || p0) eqn:CX; [|discriminate]. destruct (nth_error g i) as [nd|]; [|discriminate]. destruct (isOp nd && (p <? length (ch nd))); [|discriminate]. assert (Q : s' = St ph0 ins0 out0 bc0 (upd2 ed0 i p EExit) mn0 x0 n0 p0) by (destruct (ed0 i p); congruence). subst s'. exists r. clear H.
    assert (NL : ~ (x0 = false /\ p0 = false)) by (intros [-> ->]; discriminate).
    constructor; cbn [ph ins out bc ed mn ctxExt ctxNodes ctxPs] in *; [exact JI|exact JO|exact JF|exact JM| |].
    + intros j a' f' cs' q c' k' Ej Eq Ek'. destruct (JE j a' f' cs' q c' k' Ej Eq Ek') as [G1 [G2 G3]]. unfold past in *. cbn [bc] in *. split; [|split; [|intros X Y; exfalso; auto]].
      * intros [Q|[w Q]]; [apply G1; left; exact Q|]. apply G1. right. exists w. destruct (Nat.eq_dec j i) as [->|N]; [destruct (Nat.eq_dec q p) as [->|Nq]; [rewrite upd2_same in Q; discriminate|]|]; rewrite upd2_other in Q by congruence; exact Q.
      * intros w Q. apply G2. destruct (Nat.eq_dec j i) as [->|N]; [destruct (Nat.eq_dec q p) as [->|Nq]; [rewrite upd2_same in Q; discriminate|]|]; rewrite upd2_other in Q by congruence; exact Q.
    + intro c'. destruct (JB c') as [G1 G2]. split; [exact G1|]. intros X Y. exfalso; auto.
  - (* LCancel *)
    destruct x0; [discriminate|]. injection H as <-. exists r. constructor; cbn [ph ins out bc ed mn ctxExt ctxNodes ctxPs] in *; [exact JI|exact JO|auto| | |].
    + destruct mn0; [destruct JM as [M1 [M2 [M3 [M4 [M5 M6]]]]]; repeat split; auto|destruct JM as [M1 [M2 [M3 M4]]]; repeat split; auto].
    + intros j a' f' cs' q c' k' Ej Eq Ek'. destruct (JE j a' f' cs' q c' k' Ej Eq Ek') as [G1 [G2 G3]]. unfold past in *. cbn [bc] in *. split; [exact G1|]. split; [exact G2|]. discriminate.
    + intro c'. destruct (JB c') as [G1 G2]. split; [exact G1|]. discriminate.
Qed.
End Pr.
