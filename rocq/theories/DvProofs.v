(** Proofs about DvModel: the invariant behind C120. *)
From Coq Require Import List Arith Bool Lia.
From Verif Require Import DvModel DvSpec.
Import ListNotations.

Section Proofs.
Variable V : Type.
Variable zero : V.
Variable add : V -> V -> V.
Variable listed : list nat.
Variable getMem : nat -> option nat.
Notation state := (st V).

Inductive blk := BRun (r : nat) (v : V) | BAdd (n a r : nat).
Inductive part := P0 | P2 (n a r : nat) | P1 (n a : nat).
Definition render (b : blk) : list (call V) :=
  match b with BRun r v => [KRun r v] | BAdd n a r => [HtoD n a; KAdd a r; DtoH n a] end.
Definition renderP (p : part) : list (call V) :=
  match p with P0 => [] | P2 n a r => [KAdd a r; DtoH n a] | P1 n a => [DtoH n a] end.
Definition draw p bs := renderP p ++ flat_map render bs.

Lemma draw_app p bs b : draw p bs ++ render b = draw p (bs ++ [b]).
Proof. unfold draw. rewrite flat_map_app. cbn. rewrite app_nil_r, app_assoc. reflexivity. Qed.

Section One.
Variable s : nat.
Fixpoint effB (bs : list blk) (h : V) (m : nat -> V) : V :=
  match bs with
  | [] => h
  | BRun r v :: bs' => effB bs' h (upd m r v)
  | BAdd n _ r :: bs' => effB bs' (if n =? s then add h (m r) else h) m
  end.
Fixpoint rgs (bs : list blk) (m : nat -> V) : nat -> V :=
  match bs with
  | [] => m
  | BRun r v :: bs' => rgs bs' (upd m r v)
  | BAdd _ _ _ :: bs' => rgs bs' m
  end.
Definition effP (p : part) (h : V) (m : cell -> V) : V :=
  match p with
  | P0 => h
  | P2 n a r => if n =? s then add (m (Tmp a)) (m (Reg r)) else h
  | P1 n a => if n =? s then m (Tmp a) else h
  end.
Definition quiet (p : part) (bs : list blk) : Prop :=
  match p with P0 => True | P2 n _ _ | P1 n _ => n <> s end /\
  Forall (fun b => match b with BAdd n _ _ => n <> s | _ => True end) bs.

Lemma effB_ext : forall bs h m m', (forall r, m r = m' r) -> effB bs h m = effB bs h m'.
Proof.
  induction bs as [|[r v|n a r] bs IH]; intros h m m' E; cbn; [reflexivity| |].
  - apply IH. intro x. unfold upd. destruct (x =? r); auto.
  - rewrite E. apply IH. exact E.
Qed.
Lemma rgs_ext : forall bs m m' r, (forall r, m r = m' r) -> rgs bs m r = rgs bs m' r.
Proof.
  induction bs as [|[r0 v|n a r0] bs IH]; intros m m' r E; cbn; [auto| |auto].
  apply IH. intro x. unfold upd. destruct (x =? r0); auto.
Qed.
Lemma effB_run : forall bs h m r v, effB (bs ++ [BRun r v]) h m = effB bs h m.
Proof. induction bs as [|[r0 v0|n a r0] bs IH]; intros; cbn; auto. Qed.
Lemma effB_add : forall bs h m n a r, effB (bs ++ [BAdd n a r]) h m = if n =? s then add (effB bs h m) (rgs bs m r) else effB bs h m.
Proof. induction bs as [|[r0 v0|n0 a0 r0] bs IH]; intros; cbn; auto. Qed.
Lemma rgs_run : forall bs m r v x, rgs (bs ++ [BRun r v]) m x = if x =? r then v else rgs bs m x.
Proof. induction bs as [|[r0 v0|n a r0] bs IH]; intros; cbn; auto. Qed.
Lemma rgs_add : forall bs m n a r x, rgs (bs ++ [BAdd n a r]) m x = rgs bs m x.
Proof. induction bs as [|[r0 v0|n0 a0 r0] bs IH]; intros; cbn; auto. Qed.
Lemma quiet_app p bs b : quiet p bs -> match b with BAdd n _ _ => n <> s | _ => True end -> quiet p (bs ++ [b]).
Proof. intros [A B] C. split; [exact A|]. apply Forall_app. split; [exact B|]. constructor; [exact C|constructor]. Qed.

Variable P : place.
Variable fin : V.
Definition rest (x : state) : list V :=
  match cur x with Some i => repeat (gval i) (count_occ Nat.eq_dec (todo x) s) | None => [] end ++ shares s (prog x).
Definition regs (x : state) (c : nat) : nat -> V := fun r => dev x c (Reg r).
Definition qinv (x : state) (c : nat) : Prop := exists p bs, que x c = draw p bs /\
  (P = Card c -> fold_left add (rest x) (effB bs (effP p (unit zero (host x s)) (dev x c)) (regs x c)) = fin
     /\ forall i, cur x = Some i -> gdev i = Card c -> rgs bs (regs x c) (greg i) = gval i)
  /\ (P <> Card c -> quiet p bs).
Definition Inv (x : state) : Prop := failed x = true \/
  (host x s <> Unbound /\ (forall c, qinv x c) /\
   (P = Host -> fold_left add (rest x) (unit zero (host x s)) = fin) /\
   (forall i, In i (prog x) -> In s (gof i) -> gdev i = P) /\
   (forall i, cur x = Some i -> In s (todo x) -> gdev i = P)).

Lemma place_dec (a b : place) : {a = b} + {a <> b}.
Proof. decide equality. apply Nat.eq_dec. Qed.

Hypothesis allowed : listed = [] \/ In s listed.
Lemma not_skipped : negb (length listed =? 0) && negb (existsb (Nat.eqb s) listed) = false.
Proof.
  destruct allowed as [->|I]; [reflexivity|]. apply andb_false_iff. right. apply negb_false_iff.
  apply existsb_exists. exists s. split; [exact I|apply Nat.eqb_refl].
Qed.

Lemma rest_skip x i n t h d q g : cur x = Some i -> todo x = n :: t -> n <> s ->
  rest (St (prog x) (cur x) t h d q g false) = rest x.
Proof.
  intros C T N. unfold rest. cbn. rewrite C, T. cbn. destruct (Nat.eq_dec n s); [contradiction|reflexivity].
Qed.
Lemma rest_take x i t h d q g : cur x = Some i -> todo x = s :: t ->
  rest x = gval i :: rest (St (prog x) (cur x) t h d q g false).
Proof. intros C T. unfold rest. cbn. rewrite C, T. cbn. destruct (Nat.eq_dec s s); [reflexivity|contradiction]. Qed.

Lemma main_inv x y : Inv x -> mainStep zero add listed getMem x = Some y -> Inv y.
Proof.
  intros [F|(Hb & Hq & Hh & Hp & Hc)] H; unfold mainStep in H.
  { rewrite F in H. discriminate H. }
  destruct (failed x); [discriminate H|].
  assert (B : begin x = Some y -> (cur x = None \/ todo x = []) -> Inv y).
  { intros E Z. unfold begin in E. destruct (prog x) as [|i p] eqn:Ep; [discriminate E|]. injection E as <-. right.
    assert (Rs : rest x = repeat (gval i) (count_occ Nat.eq_dec (gof i) s) ++ shares s p).
    { unfold rest. rewrite Ep. destruct Z as [-> | ->]; [reflexivity|]. destruct (cur x); reflexivity. }
    cbn [host prog cur todo].
    assert (Hs : upd (host x) (gnode i) (match host x (gnode i) with Unbound => Plain | b => b end) s = host x s).
    { unfold upd. destruct (Nat.eqb_spec s (gnode i)) as [<-|]; [|reflexivity]. destruct (host x s); [contradiction Hb|..]; reflexivity. }
    split; [|split; [|split; [|split]]].
    - rewrite Hs. exact Hb.
    - intro c. destruct (Hq c) as (p0 & bs & Q & I1 & I2). unfold qinv, regs, rest. cbn [que prog cur todo host dev].
      fold (regs x c). rewrite Hs. rewrite Rs in I1.
      destruct (gdev i) as [|c0] eqn:Ed.
      + exists p0, bs. split; [exact Q|]. split; [|exact I2]. intro PC. destruct (I1 PC) as [J1 J2]. split; [exact J1|].
        intros j Hj Dj. injection Hj as <-. congruence.
      + unfold upd at 1. destruct (Nat.eqb_spec c c0) as [<-|N].
        * exists p0, (bs ++ [BRun (greg i) (gval i)]). split; [rewrite Q; apply (draw_app p0 bs (BRun (greg i) (gval i)))|].
          split; [|intro NP; apply quiet_app; [exact (I2 NP)|exact I]].
          intro PC. destruct (I1 PC) as [J1 J2]. split; [rewrite effB_run; exact J1|].
          intros j Hj Dj. injection Hj as <-. rewrite rgs_run, Nat.eqb_refl. reflexivity.
        * exists p0, bs. split; [exact Q|]. split; [|exact I2]. intro PC. destruct (I1 PC) as [J1 J2]. split; [exact J1|].
          intros j Hj Dj. injection Hj as <-. congruence.
    - intro PH. rewrite Hs. rewrite Rs in Hh. exact (Hh PH).
    - intros j Hj. apply Hp. right. exact Hj.
    - intros j Hj. injection Hj as <-. apply Hp. left. reflexivity. }
  destruct (cur x) as [i|] eqn:Ec; [|apply B; auto]. destruct (todo x) as [|n t] eqn:Et; [apply B; auto|].
  clear B. injection H as <-. unfold source. rewrite Ec.
  destruct (Nat.eq_dec n s) as [->|N].
  - rewrite not_skipped. assert (Dp : gdev i = P) by (apply (Hc i eq_refl); left; reflexivity).
    destruct (gdev i) as [|c0] eqn:Ed.
    + (* on the host *)
      destruct (host x s) as [| |d] eqn:Eh; [contradiction Hb; reflexivity|..]; right; (split; [|split; [|split; [|split]]]);
      cbn [host prog cur todo que dev];
      try (unfold upd; rewrite Nat.eqb_refl; discriminate); try exact Hp; try (intros j Hj Hi; apply (Hc j Hj); right; exact Hi).
      all: try (intros c; destruct (Hq c) as (p0 & bs & Q & I1 & I2); exists p0, bs; split; [exact Q|]; split; [intro PC; congruence|exact I2]).
      all: intros _; unfold upd; rewrite Nat.eqb_refl; specialize (Hh (eq_sym Dp)); 
        rewrite (rest_take x i t (host x) (dev x) (que x) (gets x) Ec Et) in Hh; rewrite Ec in Hh; exact Hh.
    + destruct (host x s) as [| |d] eqn:Eh; [contradiction Hb; reflexivity|..];
      (destruct (getMem (gets x)) as [a|]; [|left; reflexivity]); right; (split; [|split; [|split; [|split]]]);
      cbn [host prog cur todo que dev];
      try (unfold upd; rewrite Nat.eqb_refl; discriminate); try exact Hp; try (intros j Hj Hi; apply (Hc j Hj); right; exact Hi);
      try (intro PH; congruence).
      all: intros c; destruct (Hq c) as (p0 & bs & Q & I1 & I2); unfold qinv, regs; cbn [que prog cur todo host dev]; fold (regs x c);
        unfold upd at 1; destruct (Nat.eqb_spec c c0) as [<-|NC];
        [|exists p0, bs; split; [exact Q|]; split; [intro PC; congruence|exact I2]].
      all: exists p0, (bs ++ [BAdd s a (greg i)]); split; [rewrite Q; apply (draw_app p0 bs (BAdd s a (greg i)))|];
        (split; [|intro PC; congruence]); intro PC; destruct (I1 PC) as [J1 J2]; (split; [|intros j Hj Dj; injection Hj as <-; rewrite rgs_add; apply J2; auto]).
      all: rewrite effB_add, Nat.eqb_refl, (J2 i Ec Ed); unfold upd; rewrite Nat.eqb_refl; cbn [unit];
        rewrite Eh in J1; cbn [unit] in J1; rewrite (rest_take x i t (host x) (dev x) (que x) (gets x) Ec Et) in J1; rewrite Ec in J1; exact J1.
  - assert (K : forall h' q' g', (forall c, exists bs', q' c = que x c ++ flat_map render bs' /\ Forall (fun b => match b with BAdd n _ _ => n <> s | _ => False end) bs') ->
      h' s = host x s -> Inv (St (prog x) (cur x) t h' (dev x) q' g' false)).
    { intros h' q' g' Hq' Hh'. right. rewrite <- Ec in Hc. assert (Ec' := Ec). cbn [host prog cur todo]. rewrite Hh'. split; [exact Hb|]. split; [|split; [|split]].
      - intro c. destruct (Hq c) as (p0 & bs & Q & I1 & I2). destruct (Hq' c) as (bs' & Q' & F').
        unfold qinv, regs. cbn [que host dev]. fold (regs x c). rewrite Hh', (rest_skip x i n t h' (dev x) q' g' Ec Et N). cbn [cur].
        assert (EB : forall h m, effB (bs ++ bs') h m = effB bs h m /\ forall r, rgs (bs ++ bs') m r = rgs bs m r).
        { clear - F'. induction bs' as [|b bs' IH] using rev_ind; intros h m; [rewrite app_nil_r; auto|].
          apply Forall_app in F'. destruct F' as [F1 F2]. apply Forall_inv in F2. destruct b as [|n0 a0 r0]; [contradiction|].
          rewrite app_assoc. destruct (IH F1 h m) as [A B]. split; [rewrite effB_add; destruct (Nat.eqb_spec n0 s); [contradiction|exact A]|].
          intro r. rewrite rgs_add. apply B. }
        exists p0, (bs ++ bs'). split; [rewrite Q', Q; unfold draw; rewrite flat_map_app, app_assoc; reflexivity|]. split.
        + intro PC. destruct (I1 PC) as [J1 J2]. split; [rewrite (proj1 (EB _ _)); exact J1|].
          intros j Hj Dj. rewrite (proj2 (EB zero _)). apply J2; [exact Hj|exact Dj].
        + intro NP. destruct (I2 NP) as [A B]. split; [exact A|]. apply Forall_app. split; [exact B|].
          eapply Forall_impl; [|exact F']. intros [|]; tauto.
      - intro PH. rewrite (rest_skip x i n t h' (dev x) q' g' Ec Et N). exact (Hh PH).
      - exact Hp.
      - intros j Hj Hi. apply (Hc j Hj). right. exact Hi. }
    rewrite Ec in K.
    assert (K0 : forall c : nat, exists bs', que x c = que x c ++ flat_map render bs' /\ Forall (fun b => match b with BAdd n _ _ => n <> s | _ => False end) bs').
    { intro c. exists []. split; [cbn; rewrite app_nil_r; reflexivity|constructor]. }
    assert (U : forall b, upd (host x) n b s = host x s).
    { intro b. unfold upd. destruct (Nat.eqb_spec s n); [congruence|reflexivity]. }
    destruct (negb (length listed =? 0) && negb (existsb (Nat.eqb n) listed)); [apply K; [exact K0|reflexivity]|].
    assert (K1 : forall c0 a c, exists bs', upd (que x) c0 (que x c0 ++ [HtoD n a; KAdd a (greg i); DtoH n a]) c = que x c ++ flat_map render bs' /\ Forall (fun b => match b with BAdd n _ _ => n <> s | _ => False end) bs').
    { intros c0 a c. unfold upd. destruct (Nat.eqb_spec c c0) as [<-|]; [|apply K0]. exists [BAdd n a (greg i)]. split; [reflexivity|]. constructor; [exact N|constructor]. }
    destruct (host x n) as [| |d] eqn:En; [apply K; [exact K0|reflexivity]|..];
    (destruct (gdev i) as [|c0]; [apply K; [exact K0|apply U]|]);
    (destruct (getMem (gets x)) as [a|]; [apply K; [apply K1|apply U]|left; reflexivity]).
Qed.

Lemma work_inv x c y : Inv x -> workStep zero add x c = Some y -> Inv y.
Proof.
  intros [F|(Hb & Hq & Hh & Hp & Hc)] H; unfold workStep in H.
  { left. destruct (que x c) as [|[] ?]; try discriminate H; injection H as <-; exact F. }
  destruct (Hq c) as (p & bs & Q & I1 & I2).
  assert (L : exists k q p' bs', que x c = k :: q /\ q = draw p' bs' /\
     ((exists r v, k = KRun r v /\ p = P0 /\ p' = P0 /\ bs = BRun r v :: bs') \/
      (exists n a r, k = HtoD n a /\ p = P0 /\ p' = P2 n a r /\ bs = BAdd n a r :: bs') \/
      (exists n a r, k = KAdd a r /\ p = P2 n a r /\ p' = P1 n a /\ bs = bs') \/
      (exists n a, k = DtoH n a /\ p = P1 n a /\ p' = P0 /\ bs = bs'))).
  { destruct (que x c) as [|k q] eqn:E; [discriminate H|]. destruct p as [|n a r|n a]; cbn in Q.
    - destruct bs as [|[r v|n a r] bs]; cbn in Q; [discriminate Q|..]; injection Q as -> ->.
      + eexists _, _, P0, bs. split; [reflexivity|]. split; [reflexivity|]. left. eauto 8.
      + eexists _, _, (P2 n a r), bs. split; [reflexivity|]. split; [reflexivity|]. right; left. eauto 8.
    - injection Q as -> ->. eexists _, _, (P1 n a), bs. split; [reflexivity|]. split; [reflexivity|]. right; right; left. eauto 8.
    - injection Q as -> ->. eexists _, _, P0, bs. split; [reflexivity|]. split; [reflexivity|]. right; right; right. eauto 8. }
  destruct L as (k & q & p' & bs' & Q1 & Q2 & L). rewrite Q1 in H. cbv zeta in H.
  (* the new host and memory *)
  assert (G : exists h' m', y = St (prog x) (cur x) (todo x) h' m' (upd (que x) c q) (gets x) (failed x) /\
     h' s <> Unbound /\ (P <> Card c -> unit zero (h' s) = unit zero (host x s)) /\
     (forall c' z, c' <> c -> m' c' z = dev x c' z) /\
     (P = Card c -> forall l,
        effB bs (effP p (unit zero (host x s)) (dev x c)) (regs x c) = l ->
        effB bs' (effP p' (unit zero (h' s)) (m' c)) (fun r => m' c (Reg r)) = l) /\
     (forall r, rgs bs' (fun r => m' c (Reg r)) r = rgs bs (regs x c) r) /\
     (P <> Card c -> quiet p' bs')).
  { destruct L as [(r & v & -> & -> & -> & ->)|[(n & a & r & -> & -> & -> & ->)|[(n & a & r & -> & -> & -> & ->)|(n & a & -> & -> & -> & ->)]]].
    - injection H as <-. eexists _, _. split; [reflexivity|]. split; [exact Hb|]. split; [reflexivity|].
      assert (E : forall r0, upd (regs x c) r v r0 = store (dev x) c (Reg r) v c (Reg r0)).
      { intro r0. unfold upd, store, regs, cellEq. rewrite Nat.eqb_refl. reflexivity. }
      split; [intros c' z N; unfold store; destruct (Nat.eqb_spec c' c); [contradiction|reflexivity]|]. split; [|split].
      + intros PC l El. cbn [effB effP] in El |- *. rewrite <- El. symmetry. apply effB_ext. exact E.
      + intro r0. cbn [rgs]. symmetry. apply rgs_ext. exact E.
      + intro NP. destruct (I2 NP) as [A B]. split; [exact I|]. inversion B; assumption.
    - injection H as <-. eexists _, _. split; [reflexivity|]. split; [exact Hb|]. split; [reflexivity|].
      assert (E : forall r0, store (dev x) c (Tmp a) (unit zero (host x n)) c (Reg r0) = regs x c r0).
      { intro r0. unfold store, regs, cellEq. rewrite andb_false_r. reflexivity. }
      split; [intros c' z N; unfold store; destruct (Nat.eqb_spec c' c); [contradiction|reflexivity]|]. split; [|split].
      + intros PC l El. cbn [effB effP] in El |- *. rewrite <- El, (effB_ext _ _ _ (regs x c) E). f_equal. rewrite E.
        destruct (Nat.eqb_spec n s) as [->|]; [|reflexivity]. unfold store, cellEq. rewrite !Nat.eqb_refl. reflexivity.
      + intro r0. cbn [rgs]. apply rgs_ext. exact E.
      + intro NP. destruct (I2 NP) as [A B]. split; [|inversion B; assumption]. apply Forall_inv in B. exact B.
    - injection H as <-. eexists _, _. split; [reflexivity|]. split; [exact Hb|]. split; [reflexivity|].
      assert (E : forall v r0, store (dev x) c (Tmp a) v c (Reg r0) = regs x c r0).
      { intros v r0. unfold store, regs, cellEq. rewrite andb_false_r. reflexivity. }
      split; [intros c' z N; unfold store; destruct (Nat.eqb_spec c' c); [contradiction|reflexivity]|]. split; [|split].
      + intros PC l El. cbn [effP] in El |- *. rewrite <- El, (effB_ext _ _ _ (regs x c) (E _)). f_equal.
        destruct (Nat.eqb_spec n s) as [->|]; [|reflexivity]. unfold store, cellEq. rewrite !Nat.eqb_refl. reflexivity.
      + intro r0. apply rgs_ext. exact (E _).
      + intro NP. exact (I2 NP).
    - injection H as <-. eexists _, _. split; [reflexivity|]. split; [unfold upd; destruct (s =? n); [discriminate|exact Hb]|].
      split; [intro NP; destruct (I2 NP) as [A _]; unfold upd; destruct (Nat.eqb_spec s n); [congruence|reflexivity]|].
      split; [reflexivity|]. split; [|split].
      + intros PC l El. cbn [effP] in El |- *. rewrite <- El. unfold upd. rewrite (Nat.eqb_sym s n). destruct (n =? s); reflexivity.
      + reflexivity.
      + intro NP. destruct (I2 NP) as [_ B]. split; [exact I|exact B]. }
  destruct G as (h' & m' & -> & G1 & G2 & G3 & G4 & G5 & G6). right. cbn [host prog cur todo].
  assert (Rs : rest (St (prog x) (cur x) (todo x) h' m' (upd (que x) c q) (gets x) (failed x)) = rest x) by reflexivity.
  split; [exact G1|]. split; [|split; [|split; [exact Hp|exact Hc]]].
  - intro c'. unfold qinv. rewrite Rs. unfold regs. cbn [que host dev cur]. unfold upd at 1.
    destruct (Nat.eqb_spec c' c) as [->|N].
    + exists p', bs'. split; [exact Q2|]. split; [|exact G6]. intro PC. destruct (I1 PC) as [J1 J2]. split.
      * rewrite (G4 PC _ eq_refl). exact J1.
      * intros i Hi Di. rewrite G5. apply J2; assumption.
    + destruct (Hq c') as (p0 & bs0 & Q0 & I0 & I0'). exists p0, bs0. split; [exact Q0|]. split; [|exact I0'].
      intro PC. destruct (I0 PC) as [J1 J2].
      assert (E : forall r, m' c' (Reg r) = regs x c' r) by (intro r; apply G3; exact N).
      split.
      * rewrite (effB_ext _ _ _ _ E). replace (effP p0 (unit zero (h' s)) (m' c')) with (effP p0 (unit zero (host x s)) (dev x c')); [exact J1|].
        destruct p0; cbn; rewrite ?G3 by exact N; rewrite ?G2 by congruence; reflexivity.
      * intros i Hi Di. rewrite (rgs_ext _ _ _ _ E). apply J2; assumption.
  - intro PH. rewrite Rs. rewrite G2 by congruence. exact (Hh PH).
Qed.

Lemma run_inv : forall ls x y, Inv x -> run zero add listed getMem ls x = Some y -> Inv y.
Proof.
  induction ls as [|l ls IH]; intros x y I H; cbn in H; [injection H as <-; exact I|].
  destruct l as [|c].
  - destruct (mainStep zero add listed getMem x) as [z|] eqn:E; [|discriminate H]. apply (IH z y); [|exact H]. exact (main_inv x z I E).
  - destruct (workStep zero add x c) as [z|] eqn:E; [|discriminate H]. apply (IH z y); [|exact H]. exact (work_inv x c z I E).
Qed.
End One.
End Proofs.
