(** Invariants of the handshake of HandModel. *)
From Coq Require Import List Arith Lia Permutation Bool.
From Verif Require Import HandModel HandSpec.
Import ListNotations.

Section Proofs.
Context {J E : Type}.
Variable attached : bool.
Variable cap : nat.
Variable closures : list (option E).
Notation fire := (fire attached cap closures).
Notation go := (go attached cap closures).
Notation st := (st J E).

Lemma jobs_app (a b : list (act J)) : jobs (a ++ b) = jobs a ++ jobs b.
Proof. induction a as [|[| | |] a IH]; cbn; rewrite ?IH; reflexivity. Qed.

(** ** What runall sends *)
Definition act_step (x : step J E) : Prop := match x with SAct _ => True | _ => False end.
Definition proper (p : list (step J E)) : Prop :=
  forall a x t, p = map SAct a ++ x :: t -> ~ act_step x -> t = [].

Lemma map_act_inj (xs : list (act J)) : forall (a : list (act J)) (p : list (step J E)) x t,
  map SAct xs ++ p = map SAct a ++ x :: t -> ~ act_step x ->
  exists b, a = xs ++ b /\ p = map SAct b ++ x :: t.
Proof.
  induction xs as [|y xs IH]; intros a p x t H N; [exists a; auto|].
  destruct a as [|z a]; cbn in H.
  - injection H as Hx _. subst x. exfalso. apply N. exact I.
  - injection H as -> H. destruct (IH _ _ _ _ H N) as (b & -> & ->). exists b. auto.
Qed.

Lemma act_snoc (xs a : list (act J)) (q x : step J E) t : ~ act_step q ->
  map SAct xs ++ [q] = map SAct a ++ x :: t -> ~ act_step x -> a = xs /\ x = q /\ t = [].
Proof.
  intros Q H N. destruct (map_act_inj _ _ _ _ _ H N) as (b & -> & H').
  destruct b as [|z b]; cbn in H'.
  - injection H' as -> <-. rewrite app_nil_r. auto.
  - exfalso. injection H' as -> _. apply Q. exact I.
Qed.

Lemma runall_ends : forall (is : list (instr J E)) a x t, runall is = map SAct a ++ x :: t -> ~ act_step x ->
  t = [] /\ exists r, Outcome is a r /\ x = match r with Some e => SErr e | None => SDone end.
Proof.
  induction is as [|[xs [e|]] is IH]; intros a x t H N; cbn in H.
  - apply (act_snoc [] a SDone) in H; [|auto|exact N]. destruct H as (-> & -> & ->).
    split; [reflexivity|]. exists None. split; [|reflexivity]. apply (all_fine []). constructor.
  - apply act_snoc in H; [|auto|exact N]. destruct H as (-> & -> & ->).
    split; [reflexivity|]. exists (Some e). split; [|reflexivity]. apply (fails [] xs e is). constructor.
  - destruct (map_act_inj _ _ _ _ _ H N) as (b & -> & H'). destruct (IH _ _ _ H' N) as (Ht & r & O & Hx).
    split; [exact Ht|]. exists r. split; [|exact Hx].
    destruct O as [is F|a' xs' e' b' F].
    + apply (all_fine ((xs, None) :: is)). constructor; [reflexivity|exact F].
    + rewrite app_assoc. apply (fails ((xs, None) :: a') xs' e' b'). constructor; [reflexivity|exact F].
Qed.

Lemma runall_proper is : proper (runall is).
Proof. intros a x t H N. apply (runall_ends is a x t H N). Qed.

Lemma lisp_proper f b fwd bwd : proper (lispRunall f b fwd bwd).
Proof. intros a x t H N. unfold lispRunall in H. apply act_snoc in H; [|auto|exact N]. tauto. Qed.

Lemma runall_last (is : list (instr J E)) : exists a x, runall is = map SAct a ++ [x] /\ ~ act_step x.
Proof.
  induction is as [|[xs [e|]] is IH]; cbn.
  - exists [], SDone. auto.
  - exists xs, (SErr e). auto.
  - destruct IH as (a & x & -> & N). exists (xs ++ a), x. rewrite map_app, app_assoc. auto.
Qed.

(** ** Where everybody is *)
Definition cur (r : rpc J) : list (act J) := match r with RFlush _ => [Flush] | RWait => [Sig] | _ => [] end.
Definition PInv (p : list (step J E)) (s : st) : Prop :=
  match mn s with
  | MSel | MWork _ _ | MSync => p = map SAct (did s ++ cur (rn s)) ++ todo s
  | MLast _ => p = map SAct (did s) ++ [SDone] /\ rn s = RNext /\ todo s = []
  | MClos cs => (p = map SAct (did s) ++ [SDone] /\ rn s = RNext /\ todo s = []) /\
                exists a, closures = a ++ cs /\ Forall (fun x => x = None) a
  | MDefer r _ | MRet r =>
      rn s = RNext /\ todo s = [] /\
      ((exists e, r = Some e /\ p = map SAct (did s) ++ [SErr e]) \/
       (p = map SAct (did s) ++ [SDone] /\ FirstError closures r))
  end.
(** A waiting Signal, and an empty channel when it is answered or RunAll has returned. *)
Definition SInv (s : st) : Prop :=
  (rn s = RWait <-> match mn s with MWork true _ | MSync => True | _ => False end) /\
  (attached = true -> match mn s with MSync | MRet _ => work s = [] | _ => True end).
(** Where the calls are. *)
Definition mh (s : st) : list J := match mhand (mn s) with Some h => h | None => [] end.
Definition rh (s : st) : list J := match rn s with RFlush h => h | _ => [] end.
Definition JInv (s : st) : Prop := Permutation (jobs (did s)) (ran s ++ mh s ++ rh s ++ work s).
Definition OInv (s : st) : Prop := jobs (did s) = ran s ++ mh s ++ work s.
(** A call in the channel is not forgotten. *)
Definition KInv (s : st) : Prop :=
  idle s = 0 /\ (mn s = MSel -> col s = false -> tok s = false -> work s = [] \/ rn s = RTok).

Ltac split_fire F :=
  repeat match type of F with
  | (match ?x with _ => _ end) = Some _ => destruct x eqn:?; try discriminate F
  end; try (injection F as <-).

Lemma PInv_step p l (s s' : st) : proper p -> PInv p s -> fire l s = Some s' -> PInv p s'.
Proof.
  intros PR I F. destruct s as [m r t c k i w x d]. unfold PInv in *. cbn [mn rn todo did] in I.
  destruct l; cbn [HandModel.fire] in F; split_fire F; cbn [mn rn todo did]; subst;
    try (destruct m; cbn [mhand withHand afterWork] in *; try discriminate; try exact I);
    try (destruct I as (Hp & Hr & Ht); discriminate);
    try (destruct I as ((Hp & Hr & Ht) & ?); discriminate);
    try (destruct I as (Hr & Ht & ?); discriminate);
    cbn [cur] in *; rewrite ?app_nil_r, ?map_app, <- ?app_assoc in *; cbn [map app] in *; try (exact I); try reflexivity.
  - assert (t' := PR d (SErr e) l eq_refl (fun H => H)). subst l.
    split; [reflexivity|split; [reflexivity|]]. left. exists e. auto.
  - assert (t' := PR d SDone l eq_refl (fun H => H)). subst l. auto.
  - destruct sync; exact I.
  - split; [exact I|]. exists []. auto.
  - destruct sync; exact I.
  - split; [exact I|]. exists []. auto.
  - destruct I as ((A & B & C) & a & -> & D). split; [exact B|split; [exact C|]]. right. split; [exact A|].
    rewrite app_nil_r. constructor. exact D.
  - destruct I as ((A & B & C) & a & -> & D). split; [exact B|split; [exact C|]]. right. split; [exact A|].
    constructor. exact D.
  - destruct I as (A & a & H & D). split; [exact A|]. exists (a ++ [None]). split; [rewrite <- app_assoc; exact H|].
    apply Forall_app. split; [exact D|]. constructor; [reflexivity|constructor].
Qed.

Lemma SInv_step p l (s s' : st) : proper p -> PInv p s -> SInv s -> fire l s = Some s' -> SInv s'.
Proof.
  intros PR P [A B] F. destruct s as [m r t c k i w x d]. unfold SInv, PInv in *. cbn [mn rn todo did work] in *.
  destruct l; cbn [HandModel.fire] in F; split_fire F; cbn [mn rn todo did work]; subst;
    try (split; [exact A|exact B]);
    try (destruct m as [|[|] ?| | | | |]; cbn [mhand withHand afterWork] in *; try discriminate);
    (split; [|intros AT; specialize (B AT); try discriminate AT; try exact I; try reflexivity; try assumption;
              try (destruct P as (? & ? & ?); discriminate); try discriminate B; auto]);
    try (split; intros; try discriminate; try contradiction; try exact I; try reflexivity; try (apply A; assumption); try (apply A in H; assumption); try (apply A; exact I); fail);
    try (destruct A as [A1 A2]; split; intros H; try discriminate H; try contradiction; try (specialize (A2 I); discriminate A2); auto; fail).
  destruct A as [_ A]. discriminate (A I).
Qed.

Lemma perm_hand (x a b w : list J) j : Permutation (x ++ a ++ b ++ j :: w) (x ++ (a ++ [j]) ++ b ++ w).
Proof.
  apply Permutation_app_head. rewrite <- app_assoc. apply Permutation_app_head.
  apply Permutation_sym. exact (Permutation_middle b w j).
Qed.

Lemma mhand_with (m : mpc J E) h h' : mhand m = Some h -> mhand (withHand m h') = Some h'.
Proof. destruct m; cbn; try discriminate; reflexivity. Qed.

Lemma mhand_after (m : mpc J E) h : mhand m = Some h -> mhand (afterWork closures m) = None.
Proof. destruct m as [|[|] ?| | | | |]; cbn; try discriminate; reflexivity. Qed.

Ltac prep s F :=
  destruct s as [m r t c k i w x d]; cbn [mn rn todo did work ran] in *;
  unfold mh, rh in *; cbn [mn rn todo did work ran] in *.

Lemma JInv_step l (s s' : st) : JInv s -> fire l s = Some s' -> JInv s'.
Proof.
  intros I F. unfold JInv in *. prep s F.
  destruct l; cbn [HandModel.fire] in F; split_fire F; cbn [mn rn todo did work ran mhand]; subst;
    rewrite ?jobs_app; cbn [jobs]; rewrite ?app_nil_r; cbn [mhand app] in *;
    repeat match goal with H : mhand ?m = Some _ |- _ => rewrite ?(mhand_with _ _ _ H), ?(mhand_after _ _ H); rewrite ?H in *; clear H end;
    try exact I; cbn [app] in *; rewrite ?app_nil_r in *; try exact I.
  - rewrite !app_assoc. apply Permutation_app_tail. rewrite <- !app_assoc. exact I.
  - eapply Permutation_trans; [exact I|]. apply Permutation_app_head. apply Permutation_app_head.
    rewrite <- app_assoc. apply Permutation_refl.
  - eapply Permutation_trans; [exact I|]. rewrite <- !app_assoc. apply Permutation_app_head. cbn [app].
    apply (Permutation_app_swap_app _ (j :: l)).
  - eapply Permutation_trans; [exact I|]. apply perm_hand.
  - rewrite <- !app_assoc. exact I.
Qed.

Lemma no_flush_now (d : list (act J)) (r : rpc J) (t p : list (step J E)) : ~ In (SAct Flush) p ->
  p = map SAct (d ++ cur r) ++ t -> (forall h, r <> RFlush h) /\ ~ In (SAct Flush) t.
Proof.
  intros N ->. split.
  - intros h ->. apply N. rewrite map_app, !in_app_iff. left. right. left. reflexivity.
  - intros H. apply N. apply in_app_iff. auto.
Qed.

Lemma OInv_step p l (s s' : st) : ~ In (SAct Flush) p -> PInv p s -> OInv s -> fire l s = Some s' -> OInv s'.
Proof.
  intros N P I F. unfold OInv, PInv in *. prep s F.
  assert (R : (forall h, r <> RFlush h) /\ ~ In (SAct Flush) t).
  { destruct m; try (apply (no_flush_now d r t p N P));
      (destruct P as (_ & -> & ->) || destruct P as ((_ & -> & ->) & _) || destruct P as (-> & -> & _));
      (split; [discriminate|intros []]). }
  destruct R as [R1 R2]. clear P.
  destruct l; cbn [HandModel.fire] in F; split_fire F; cbn [mn rn todo did work ran mhand]; subst;
    rewrite ?jobs_app; cbn [jobs]; rewrite ?app_nil_r; cbn [mhand app] in *;
    repeat match goal with H : mhand ?m = Some _ |- _ => rewrite ?(mhand_with _ _ _ H), ?(mhand_after _ _ H); rewrite ?H in *; clear H end;
    try exact I; cbn [app] in *; rewrite ?app_nil_r in *;
    try (destruct (R1 _ eq_refl)); try exact I.
  - rewrite I, <- !app_assoc. reflexivity.
  - rewrite I, <- !app_assoc. reflexivity.
  - rewrite I, <- !app_assoc. reflexivity.
Qed.

Lemma KInv_step p l (s s' : st) : attached = true -> PInv p s -> SInv s -> KInv s -> fire l s = Some s' -> KInv s'.
Proof.
  intros AT P [S1 S2] [I0 I] F. unfold KInv in *. destruct s as [m r t c k i w x d]. cbn [mn rn todo did work ran idle col tok] in *.
  destruct l; cbn [HandModel.fire] in F; split_fire F; cbn [mn rn todo did work ran idle col tok]; subst;
    try discriminate;
    (split; [reflexivity|]);
    try (intros H1 H2 H3; try discriminate; try (apply I; assumption); auto; fail).
  - intros H1 H2 H3. destruct (I H1 H2 H3) as [H|H]; [auto|discriminate H].
  - intros H1 H2 H3. destruct (I H1 H2 H3) as [H|H]; discriminate H.
  - intros H1 H2 H3. destruct (I H1 H2 H3) as [H|H]; [auto|discriminate H].
  - destruct m; cbn; intros; discriminate.
  - destruct m; cbn; intros; discriminate.
Qed.

(** ** All of it along an execution *)
Lemma go_app ls1 : forall ls2 (s : st), go (ls1 ++ ls2) s = match go ls1 s with Some s' => go ls2 s' | None => None end.
Proof. induction ls1 as [|l ls1 IH]; intros; cbn; [reflexivity|]. destruct (fire l s); [apply IH|reflexivity]. Qed.

Lemma go_inv (P : st -> Prop) (H : forall l s s', P s -> fire l s = Some s' -> P s') :
  forall ls s s', P s -> go ls s = Some s' -> P s'.
Proof.
  induction ls as [|l ls IH]; intros s s' Hs G; cbn in G; [injection G as <-; exact Hs|].
  destruct (fire l s) as [s1|] eqn:F; [|discriminate]. exact (IH s1 s' (H l s s1 Hs F) G).
Qed.

Lemma reach_inv p c k i ls (s : st) : proper p -> go ls (start p c k i) = Some s -> PInv p s /\ SInv s /\ JInv s.
Proof.
  intros PR G. apply (go_inv (fun s => PInv p s /\ SInv s /\ JInv s)) with (ls := ls) (s := start p c k i); [|split; [|split]|exact G].
  - intros l s1 s2 (A & B & C) F. split; [exact (PInv_step p l s1 s2 PR A F)|].
    split; [exact (SInv_step p l s1 s2 PR A B F)|exact (JInv_step l s1 s2 C F)].
  - reflexivity.
  - split; cbn; [split; [discriminate|contradiction]|auto].
  - apply Permutation_refl.
Qed.

Lemma reach_order p c k i ls (s : st) : proper p -> ~ In (SAct Flush) p -> go ls (start p c k i) = Some s -> OInv s.
Proof.
  intros PR N G. apply (go_inv (fun s => PInv p s /\ OInv s)) with (ls := ls) (s := start p c k i); [|split; reflexivity|exact G].
  intros l s1 s2 (A & B) F. split; [exact (PInv_step p l s1 s2 PR A F)|exact (OInv_step p l s1 s2 N A B F)].
Qed.

Lemma reach_K p c k ls (s : st) : attached = true -> proper p -> go ls (start p c k 0) = Some s -> PInv p s /\ SInv s /\ KInv s.
Proof.
  intros AT PR G. apply (go_inv (fun s => PInv p s /\ SInv s /\ KInv s)) with (ls := ls) (s := start p c k 0); [|split; [|split]|exact G].
  - intros l s1 s2 (A & B & C) F. split; [exact (PInv_step p l s1 s2 PR A F)|].
    split; [exact (SInv_step p l s1 s2 PR A B F)|exact (KInv_step p l s1 s2 AT A B C F)].
  - reflexivity.
  - split; cbn; [split; [discriminate|contradiction]|auto].
  - split; cbn; auto.
Qed.

(** ** Somebody can always move *)
Lemma progress p (s : st) : attached = true -> 0 < cap -> (exists a x, p = map SAct a ++ [x] /\ ~ act_step x) ->
  PInv p s -> SInv s -> KInv s -> (forall r, mn s <> MRet r) -> exists l s', fire l s = Some s'.
Proof.
  intros AT C0 (a & q & Hp & Hq) P [S1 S2] [K0 K] NR.
  destruct s as [m r t c k i w x d]. unfold PInv in P. cbn [mn rn todo did work ran idle col tok] in *. subst i.
  assert (W : forall h, mhand m = Some h -> exists l s', fire l (St m r t c k 0 w x d) = Some s').
  { intros [|j h] H.
    - destruct w as [|j w].
      + exists MEnd. cbn. rewrite H. eexists. reflexivity.
      + exists MTake. cbn. rewrite H, AT. eexists. reflexivity.
    - exists MProc. cbn. rewrite H. eexists. reflexivity. }
  destruct m as [|b h| |h|[|[e|] cs]|e h|e]; try (apply (W _ eq_refl)); clear W.
  - destruct r as [| |[|j h]|].
    + destruct t as [|[[|j| |]|e|] t].
      * exfalso. cbn [cur] in P. rewrite !app_nil_r in P. assert (Hin : In q p) by (rewrite Hp; apply in_or_app; right; left; reflexivity).
        rewrite P in Hin. apply in_map_iff in Hin. destruct Hin as (y & <- & _). apply Hq. exact I.
      * exists Run. eexists. reflexivity.
      * destruct (length w <? cap) eqn:L; [exists Run; cbn [HandModel.fire]; rewrite L; eexists; reflexivity|].
        destruct c; [exists GiveF; cbn; rewrite AT; eexists; reflexivity|].
        destruct k; [exists Col; cbn; rewrite AT; eexists; reflexivity|].
        destruct (K eq_refl eq_refl eq_refl) as [-> |H]; [|discriminate H].
        apply Nat.ltb_ge in L. cbn in L. lia.
      * exists Run. eexists. reflexivity.
      * exists GiveT. cbn. rewrite AT. eexists. reflexivity.
      * exists SendErr. eexists. reflexivity.
      * exists SendDone. eexists. reflexivity.
    + exists Run. eexists. reflexivity.
    + destruct w as [|j w]; [exists REnd; eexists; reflexivity|exists RTake; cbn; rewrite AT; eexists; reflexivity].
    + exists RProc. eexists. reflexivity.
    + exfalso. apply S1. reflexivity.
  - rewrite (proj2 S1 I). exists Ack. eexists. reflexivity.
  - exists Clos. eexists. reflexivity.
  - exists Clos. eexists. reflexivity.
  - exists Clos. eexists. reflexivity.
  - destruct (NR e eq_refl).
Qed.

(** ** Every execution is finite *)
Definition wstep (x : step J E) : nat :=
  match x with SAct Local => 1 | SAct (Enq _) => 20 | SAct Flush => 4 | SAct Sig => 10 | _ => 1 end.
Fixpoint wsteps (l : list (step J E)) : nat := match l with [] => 0 | x :: l' => wstep x + wsteps l' end.
Definition wmain (m : mpc J E) : nat :=
  match m with
  | MSel => length closures + 20 | MWork _ h => length closures + 24 + length h | MSync => length closures + 22
  | MLast h => length closures + 10 + length h | MClos cs => length cs + 5 | MDefer _ h => 3 + length h | MRet _ => 0
  end.
Definition wrun (r : rpc J) : nat := match r with RNext => 0 | RTok => 10 | RFlush h => 2 + length h | RWait => 1 end.
Definition wt (s : st) : nat :=
  wsteps (todo s) + wmain (mn s) + wrun (rn s) + (if col s then 6 else 0) + (if tok s then 8 else 0) + 2 * length (work s).

Lemma wt_dec l (s s' : st) : fire l s = Some s' -> wt s' < wt s.
Proof.
  intros F. destruct s as [m r t c k i w x d]. unfold wt.
  destruct l; cbn [HandModel.fire] in F; split_fire F; cbn [mn rn todo did work ran idle col tok]; subst; cbn [wsteps wstep wrun wmain length];
    rewrite ?app_length; cbn [length];
    try (destruct m as [|[|] ?| | | | |]; cbn [mhand withHand afterWork] in *; try discriminate;
         match goal with H : Some _ = Some _ |- _ => injection H as -> end; cbn [wmain length]; rewrite ?app_length; cbn [length]);
    repeat match goal with |- context [if ?b then _ else _] => destruct b end; try lia.
Qed.

Lemma go_bound ls : forall (s s' : st), go ls s = Some s' -> length ls <= wt s.
Proof.
  induction ls as [|l ls IH]; intros s s' G; cbn in *; [lia|].
  destruct (fire l s) as [s1|] eqn:F; [|discriminate]. apply wt_dec in F. apply IH in G. lia.
Qed.

(** ** A machine that does not know of the BLAS *)
Definition UInv (s : st) : Prop := ran s = [] /\ mh s = [] /\ rh s = [] /\ work s = jobs (did s) /\ length (work s) <= cap.

Lemma UInv_step l (s s' : st) : attached = false -> UInv s -> fire l s = Some s' -> UInv s'.
Proof.
  intros AT I F. unfold UInv in *. prep s F. destruct I as (-> & M & R & W & L).
  destruct l; cbn [HandModel.fire] in F; rewrite ?AT in F; split_fire F; cbn [mn rn todo did work ran mhand]; subst; try discriminate;
    repeat match goal with H : mhand ?m = Some _ |- _ => rewrite ?(mhand_with _ _ _ H), ?(mhand_after _ _ H); rewrite ?H in *; clear H end;
    cbn [mhand] in *; rewrite ?jobs_app, ?app_length; cbn [jobs length]; rewrite ?app_nil_r in *;
    try discriminate; try (repeat split; solve [auto]).
  apply Nat.ltb_lt in Heqb. repeat split; auto; lia.
Qed.

Lemma reach_U p c k i ls (s : st) : attached = false -> go ls (start p c k i) = Some s -> UInv s.
Proof.
  intros AT G. apply (go_inv UInv) with (ls := ls) (s := start p c k i); [|repeat split; cbn; lia|exact G].
  intros l s1 s2 A F. exact (UInv_step l s1 s2 AT A F).
Qed.
End Proofs.
