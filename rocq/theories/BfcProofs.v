(** The free list's invariant, stale back links included. *)
From Coq Require Import Arith ZArith List Bool Lia Permutation.
From Verif Require Import BfcModel BfcSpec.
Import ListNotations.
Open Scope Z_scope.

(** ** Pure facts about intervals *)
Lemma disjoint_sym x y : disjoint x y -> disjoint y x.
Proof. unfold disjoint. tauto. Qed.
Lemma pairwise_app l1 l2 : pairwise (l1 ++ l2) <->
  pairwise l1 /\ pairwise l2 /\ Forall (fun x => Forall (disjoint x) l2) l1.
Proof.
  induction l1 as [|x l1 IH]; cbn [app pairwise].
  - split; [intro H; repeat split; auto|tauto].
  - rewrite IH, Forall_app. split.
    + intros [[A B] [C [D E]]]. repeat split; auto.
    + intros [[A B] [C D]]. inversion D; subst. repeat split; auto.
Qed.
Lemma pairwise_perm l l' : Permutation l l' -> pairwise l -> pairwise l'.
Proof.
  intro P. induction P as [|x l l' P IH|x y l|l1 l2 l3 P1 IH1 P2 IH2]; cbn [pairwise]; auto.
  - intros [A B]. split; [eapply Permutation_Forall; eauto|auto].
  - intros [A [B C]]. inversion A; subst. repeat split; auto. constructor; auto using disjoint_sym.
Qed.

Definition inside (tot : Z) (x : Z * Z) : Prop := 0 < snd x /\ 0 <= fst x /\ fst x + snd x <= tot.
Record okIv (bs tot : Z) (iv us : list (Z * Z)) : Prop := {
  ok_pw : pairwise (iv ++ us);
  ok_in : Forall (inside tot) (iv ++ us);
  ok_al : Forall (fun x => bs <= snd x -> fst x mod bs = 0) iv;
  ok_us : Forall (fun x => fst x mod bs = 0) us }.
Arguments ok_pw {_ _ _ _}. Arguments ok_in {_ _ _ _}. Arguments ok_al {_ _ _ _}. Arguments ok_us {_ _ _ _}.

Lemma ok_sub bs tot iv iv' ex us : Permutation iv (iv' ++ ex) -> okIv bs tot iv us -> okIv bs tot iv' us.
Proof.
  intros P [A B C D]. assert (Q : Permutation (iv ++ us) (ex ++ (iv' ++ us))).
  { rewrite P. rewrite app_assoc. apply Permutation_app_tail. apply Permutation_app_comm. }
  split; auto.
  - apply (pairwise_perm _ _ Q) in A. apply pairwise_app in A. tauto.
  - apply (Permutation_Forall Q) in B. apply Forall_app in B. tauto.
  - apply (Permutation_Forall P) in C. apply Forall_app in C. tauto.
Qed.
Lemma ok_perm bs tot iv iv' us : Permutation iv iv' -> okIv bs tot iv us -> okIv bs tot iv' us.
Proof. intros P. apply (ok_sub _ _ _ _ []). rewrite app_nil_r. exact P. Qed.

(** ** Memory *)
Lemma update_inv s p f s' : update s p f = Some s' -> exists b, mem s p = Some b /\
  s' = withMem s (fun q => if Nat.eqb q p then Some (f b) else mem s q).
Proof. unfold update. destruct (mem s p) as [b|]; cbn [bind]; [|discriminate]. intro H. injection H as <-. eauto. Qed.
Lemma updateO_inv s p f s' : updateO s p f = Some s' -> exists q, p = Some q /\ update s q f = Some s'.
Proof. unfold updateO. destruct p as [q|]; cbn [bind]; [eauto|discriminate]. Qed.
Lemma bind_inv {A B} (x : option A) (f : A -> option B) y : bind x f = Some y -> exists a, x = Some a /\ f a = Some y.
Proof. destruct x as [a|]; cbn [bind]; [eauto|discriminate]. Qed.

Definition mp := nat -> option memblock.
Definition hdor {A} (l : list A) (d : option A) : option A := match l with [] => d | x :: _ => Some x end.
Fixpoint lastor {A} (l : list A) (d : option A) : option A := match l with [] => d | x :: r => lastor r (Some x) end.
Lemma lastor_app {A} (l1 l2 : list A) d : lastor (l1 ++ l2) d = lastor l2 (lastor l1 d).
Proof. revert d. induction l1 as [|x l1 IH]; intro d; cbn [app lastor]; auto. Qed.
Lemma lastor_in {A} (l : list A) d x : lastor l d = Some x -> In x l \/ (l = [] /\ d = Some x).
Proof.
  revert d. induction l as [|y l IH]; intros d H; cbn [lastor] in H; [right; auto|].
  left. apply IH in H as [H|[-> H]]; [right; exact H|]. injection H as ->. left. reflexivity.
Qed.

(** Each block's next is the one after it; [nx] ends the list. *)
Fixpoint cseg (st : mp) (ps : list nat) (nx : option nat) : Prop :=
  match ps with
  | [] => True
  | p :: r => (exists m, st p = Some m /\ next m = hdor r nx) /\ cseg st r nx
  end.
(** A block's prev, when it is in the list, is the one before it. *)
Fixpoint pseg (st : mp) (all : list nat) (pv : option nat) (ps : list nat) : Prop :=
  match ps with
  | [] => True
  | p :: r => (forall m d, st p = Some m -> prev m = Some d -> In d all -> pv = Some d) /\ pseg st all (Some p) r
  end.
Lemma cseg_app st l1 l2 nx : cseg st (l1 ++ l2) nx <-> cseg st l1 (hdor l2 nx) /\ cseg st l2 nx.
Proof.
  induction l1 as [|p l1 IH]; cbn [app cseg]; [tauto|]. rewrite IH.
  assert (E : hdor (l1 ++ l2) nx = hdor l1 (hdor l2 nx)) by (destruct l1; reflexivity). rewrite E. tauto.
Qed.
Lemma pseg_app st all pv l1 l2 : pseg st all pv (l1 ++ l2) <-> pseg st all pv l1 /\ pseg st all (lastor l1 pv) l2.
Proof. revert pv. induction l1 as [|p l1 IH]; intro pv; cbn [app pseg lastor]; [tauto|]. rewrite IH. tauto. Qed.
Lemma cseg_ext st st' ps nx : (forall p, In p ps -> option_map next (st' p) = option_map next (st p)) -> cseg st ps nx -> cseg st' ps nx.
Proof.
  induction ps as [|p r IH]; cbn [cseg]; auto. intros E [[m [A B]] C]. split; [|apply IH; auto; intros; apply E; right; assumption].
  specialize (E p (or_introl eq_refl)). rewrite A in E. destruct (st' p) as [m'|]; [|discriminate]. injection E as E. exists m'. split; congruence.
Qed.
Lemma pseg_ext st st' all all' ps : forall pv, (forall p, In p ps -> option_map prev (st' p) = option_map prev (st p)) ->
  (forall p m d, In p ps -> st p = Some m -> prev m = Some d -> In d all' -> In d all) -> pseg st all pv ps -> pseg st' all' pv ps.
Proof.
  induction ps as [|p r IH]; intros pv E I H; cbn [pseg] in *; auto. destruct H as [H1 H2]. split.
  - intros m d A B C. specialize (E p (or_introl eq_refl)). rewrite A in E. destruct (st p) as [m0|] eqn:F; [|discriminate].
    cbn [option_map] in E. assert (E' : prev m = prev m0) by congruence. apply (H1 m0 d); [reflexivity|congruence|].
    apply (I p m0 d); [left; reflexivity|exact F|congruence|exact C].
  - apply IH; [intros; apply E; right; assumption|intros p' m d X; apply (I p' m d); right; exact X|exact H2].
Qed.

Definition block := (nat * (Z * Z))%type.
Definition ptrs (ns : list block) : list nat := map fst ns.
Definition ivs (ns : list block) : list (Z * Z) := map snd ns.
Definition vals (st : mp) (ns : list block) : Prop :=
  Forall (fun n => exists m, st (fst n) = Some m /\ address m = fst (snd n) /\ size m = snd (snd n)) ns.
Definition opt {A} (o : option A) : list A := match o with Some x => [x] | None => [] end.

Record links (st : mp) (fr : nat) (fi la : option nat) (ns : list block) (tl : option nat) : Prop := {
  l_mem : forall p m, st p = Some m -> (p < fr)%nat /\ (forall d, prev m = Some d -> (d < fr)%nat);
  l_last : forall x, la = Some x -> (x < fr)%nat;
  l_nodup : NoDup (ptrs ns ++ opt tl);
  l_next : cseg st (ptrs ns ++ opt tl) None;
  l_prev : pseg st (ptrs ns ++ opt tl) None (ptrs ns ++ opt tl);
  l_first : fi = hdor (ptrs ns ++ opt tl) None;
  l_end : match tl with
          | None => ns = [] \/ la = lastor (ptrs ns) None
          | Some t => forall x, la = Some x -> ~ In x (ptrs ns ++ opt tl)
          end;
  l_vals : vals st ns }.
Definition Links (s : bfc) := links (mem s) (fresh s) (first s) (last s).

(** All but memory, list ends and length. *)
Definition same (s s' : bfc) : Prop :=
  start s' = start s /\ total s' = total s /\ blockSize s' = blockSize s /\ reserved s' = reserved s /\
  used s' = used s /\ allocated s' = allocated s /\ allocs s' = allocs s /\ frees s' = frees s.
Lemma same_refl s : same s s. Proof. repeat split. Qed.
Lemma same_trans s1 s2 s3 : same s1 s2 -> same s2 s3 -> same s1 s3.
Proof. unfold same. intuition congruence. Qed.

Lemma links_bound st fr fi la ns tl : links st fr fi la ns tl -> forall p, In p (ptrs ns ++ opt tl) -> (p < fr)%nat.
Proof.
  intros L p H. apply in_split in H as [l1 [l2 E]]. pose proof (l_next _ _ _ _ _ _ L) as C. rewrite E in C.
  apply cseg_app in C as [_ [[m [A _]] _]]. apply (l_mem _ _ _ _ _ _ L) in A. tauto.
Qed.
Lemma ptrs_app l1 l2 : ptrs (l1 ++ l2) = ptrs l1 ++ ptrs l2.
Proof. apply map_app. Qed.
Lemma ivs_app l1 l2 : ivs (l1 ++ l2) = ivs l1 ++ ivs l2.
Proof. apply map_app. Qed.

(** Splitting the list of pointers at a block. *)
Lemma ptrs_split ns tl l1 p l2 : ptrs ns ++ opt tl = l1 ++ p :: l2 ->
  (exists n1 iv n2, ns = n1 ++ (p, iv) :: n2 /\ l1 = ptrs n1 /\ l2 = ptrs n2 ++ opt tl) \/
  (tl = Some p /\ l1 = ptrs ns /\ l2 = []).
Proof.
  revert l1. induction ns as [|[q iv] ns IH]; intros l1 E; cbn [ptrs map fst app] in E.
  - right. destruct tl as [t|]; cbn [opt] in E; [|destruct l1; discriminate].
    destruct l1 as [|x l1]; cbn [app] in E; [injection E as -> <-; auto|destruct l1; discriminate].
  - destruct l1 as [|x l1]; cbn [app] in E.
    + injection E as -> <-. left. exists [], iv, ns. auto.
    + injection E as -> E. apply IH in E as [[n1 [iv' [n2 [A [B C]]]]]|[A [B C]]].
      * left. exists ((x, iv) :: n1), iv', n2. subst. auto.
      * right. subst. auto.
Qed.

(** ** Frames *)
Lemma links_frame st fr fi la ns tl st' la' fr' :
  links st fr fi la ns tl -> (fr <= fr')%nat ->
  (forall p m, st' p = Some m -> (p < fr')%nat /\ (forall d, prev m = Some d -> (d < fr')%nat)) ->
  (forall x, la' = Some x -> (x < fr')%nat) ->
  (forall p, In p (ptrs ns ++ opt tl) -> option_map next (st' p) = option_map next (st p) /\ option_map prev (st' p) = option_map prev (st p)) ->
  (forall p, In p (ptrs ns) -> option_map address (st' p) = option_map address (st p) /\ option_map size (st' p) = option_map size (st p)) ->
  match tl with None => ns = [] \/ la' = lastor (ptrs ns) None
              | Some t => forall x, la' = Some x -> ~ In x (ptrs ns ++ opt tl) end ->
  links st' fr' fi la' ns tl.
Proof.
  intros L Hf Hm Hl Hp Hv He. destruct L as [A B C D E F G H]. split; auto.
  - eapply cseg_ext; [|exact D]. intros p I. apply Hp, I.
  - eapply pseg_ext; [| |exact E]; [intros p I; apply Hp, I|auto].
  - unfold vals in *. rewrite Forall_forall in *. intros n I. destruct (H n I) as [m [X [Y Z]]].
    assert (I' : In (fst n) (ptrs ns)) by (apply in_map, I). destruct (Hv _ I') as [V1 V2]. rewrite X in V1, V2.
    destruct (st' (fst n)) as [m'|]; [|discriminate]. cbn [option_map] in V1, V2. exists m'. repeat split; congruence.
Qed.

Lemma mem_new s a z q : mem (fst (newMemblock s a z)) q = if Nat.eqb q (fresh s) then Some (MB a z None None) else mem s q.
Proof. reflexivity. Qed.

Lemma links_new s ns tl a z : Links s ns tl -> Links (fst (newMemblock s a z)) ns tl.
Proof.
  intro L. unfold Links. cbn [newMemblock fst mem fresh first last].
  assert (N : forall p, In p (ptrs ns ++ opt tl) -> Nat.eqb p (fresh s) = false).
  { intros p I. apply Nat.eqb_neq. apply (links_bound _ _ _ _ _ _ L) in I. lia. }
  eapply links_frame; [exact L|lia| | | | |].
  - intros p m. destruct (Nat.eqb_spec p (fresh s)) as [->|X]; intro E.
    + injection E as <-. split; [lia|discriminate].
    + apply (l_mem _ _ _ _ _ _ L) in E as [E1 E2]. split; [lia|]. intros d Hd. apply E2 in Hd. lia.
  - intros x E. apply (l_last _ _ _ _ _ _ L) in E. lia.
  - intros p I. rewrite N by exact I. auto.
  - intros p I. rewrite N by (apply in_or_app; left; exact I). auto.
  - apply (l_end _ _ _ _ _ _ L).
Qed.

(** ** Inserting *)
Lemma hdor_app {A} (l1 l2 : list A) d : hdor (l1 ++ l2) d = hdor l1 (hdor l2 d).
Proof. destruct l1; reflexivity. Qed.
Lemma eqO_spec o p : eqO o p = true <-> o = Some p.
Proof. destruct o as [q|]; cbn [eqO]; [rewrite Nat.eqb_eq; split; congruence|split; discriminate]. Qed.
Lemma eqO_false o p : eqO o p = false <-> o <> Some p.
Proof. rewrite <- eqO_spec. destruct (eqO o p); intuition congruence. Qed.

Lemma cseg_relink st st' (k : option nat) l nx : NoDup l -> cseg st l nx ->
  (forall p, In p l -> exists m m', st p = Some m /\ st' p = Some m' /\ next m' = if eqO (lastor l None) p then k else next m) ->
  cseg st' l k.
Proof.
  induction l as [|p r IH]; intros N C F; [exact I|]. inversion N as [|? ? Np Nr]; subst. cbn [cseg] in *. destruct C as [[m [A B]] C].
  split.
  - destruct (F p (or_introl eq_refl)) as [m0 [m' [X [Y Z]]]]. exists m'. split; [exact Y|]. rewrite Z.
    destruct r as [|q r]; cbn [lastor].
    + cbn [eqO]. rewrite Nat.eqb_refl. reflexivity.
    + assert (E : eqO (lastor r (Some q)) p = false).
      { apply eqO_false. intro W. apply lastor_in in W as [W|[-> W]]; [apply Np; right; exact W|]. injection W as ->. apply Np. left. reflexivity. }
      rewrite E. rewrite A in X. injection X as <-. rewrite B. reflexivity.
  - apply IH; [exact Nr|exact C|]. intros q Hq. destruct (F q (or_intror Hq)) as [m0 [m' [X [Y Z]]]]. exists m0, m'. split; [exact X|]. split; [exact Y|].
    rewrite Z. destruct r as [|q' r]; [destruct Hq|]. reflexivity.
Qed.

Lemma NoDup_appl {A} (l1 l2 : list A) : NoDup (l1 ++ l2) -> NoDup l1.
Proof.
  induction l1 as [|x l1 IH]; cbn [app]; intro H; [constructor|]. inversion H; subst. constructor; [|auto].
  intro J. apply H2. apply in_or_app. auto.
Qed.
Lemma NoDup_appr {A} (l1 l2 : list A) : NoDup (l1 ++ l2) -> NoDup l2.
Proof. induction l1 as [|x l1 IH]; cbn [app]; intro H; [exact H|]. inversion H; subst. auto. Qed.
Lemma NoDup_mid {A} (l1 l2 : list A) x : NoDup (l1 ++ l2) -> ~ In x (l1 ++ l2) -> NoDup (l1 ++ x :: l2).
Proof. intros. apply NoDup_Add with (a := x) (l := l1 ++ l2); [apply Add_app|auto]. Qed.

Lemma links_insert st fr fi la n1 n2 tl k a z st' la' pvk :
  links st fr fi la (n1 ++ n2) tl ->
  let l2 := ptrs n2 ++ opt tl in let ps := ptrs (n1 ++ n2) ++ opt tl in
  (k < fr)%nat -> ~ In k ps -> (forall p m, In p ps -> st p = Some m -> prev m <> Some k) ->
  (forall p m, st' p = Some m -> (p < fr)%nat /\ (forall d, prev m = Some d -> (d < fr)%nat)) ->
  (forall x, la' = Some x -> (x < fr)%nat) ->
  st' k = Some (MB a z (hdor l2 None) pvk) ->
  (forall d, pvk = Some d -> (In d ps -> lastor (ptrs n1) None = Some d) /\ d <> k) ->
  (forall p m, In p ps -> st p = Some m ->
     st' p = Some (MB (address m) (size m) (if eqO (lastor (ptrs n1) None) p then Some k else next m)
                                           (if eqO (hdor l2 None) p then Some k else prev m))) ->
  match tl with None => la' = lastor (ptrs (n1 ++ (k, (a, z)) :: n2)) None
              | Some _ => forall x, la' = Some x -> ~ In x ps /\ x <> k end ->
  links st' fr (hdor (ptrs (n1 ++ (k, (a, z)) :: n2) ++ opt tl) None) la' (n1 ++ (k, (a, z)) :: n2) tl.
Proof.
  intros L l2 ps Hk Nk Pk Hm Hl Sk Hpv Hp He.
  assert (Eps : ps = ptrs n1 ++ l2) by (unfold ps, l2; rewrite ptrs_app, app_assoc; reflexivity).
  assert (Eps' : ptrs (n1 ++ (k, (a, z)) :: n2) ++ opt tl = ptrs n1 ++ k :: l2).
  { unfold l2. rewrite ptrs_app. cbn [ptrs map fst]. rewrite <- app_assoc. reflexivity. }
  pose proof (l_nodup _ _ _ _ _ _ L) as ND. fold ps in ND. rewrite Eps in ND.
  pose proof (l_next _ _ _ _ _ _ L) as C. fold ps in C. rewrite Eps in C. apply cseg_app in C as [C1 C2].
  pose proof (l_prev _ _ _ _ _ _ L) as P. fold ps in P. rewrite Eps in P. apply pseg_app in P as [P1 P2].
  assert (In1 : forall p, In p (ptrs n1) -> In p ps) by (intros; rewrite Eps; apply in_or_app; auto).
  assert (In2 : forall p, In p l2 -> In p ps) by (intros; rewrite Eps; apply in_or_app; auto).
  assert (Dis : forall p, In p (ptrs n1) -> In p l2 -> False).
  { intros p A1 A2. apply in_split in A1 as [x [y E]]. rewrite E in ND. rewrite <- app_assoc in ND. cbn [app] in ND.
    apply NoDup_remove_2 in ND. apply ND. rewrite app_assoc. apply in_or_app. right. exact A2. }
  assert (Some1 : forall p, In p ps -> exists m, st p = Some m).
  { intros p Hin. pose proof (l_next _ _ _ _ _ _ L) as C. fold ps in C. apply in_split in Hin as [x [y E]]. rewrite E in C.
    apply cseg_app in C as [_ [[m [A _]] _]]. eauto. }
  split; auto.
  - rewrite Eps'. apply NoDup_mid; [exact ND|]. rewrite <- Eps. exact Nk.
  - rewrite Eps'. apply cseg_app. split.
    + cbn [hdor]. eapply cseg_relink; [|exact C1|].
      * apply NoDup_appl in ND. exact ND.
      * intros p Hin. destruct (Some1 p (In1 p Hin)) as [m E]. specialize (Hp p m (In1 p Hin) E). eexists; eexists. split; [exact E|]. split; [exact Hp|]. reflexivity.
    + cbn [cseg]. split; [eexists; split; [exact Sk|reflexivity]|].
      eapply cseg_ext; [|exact C2]. intros p Hin. destruct (Some1 p (In2 p Hin)) as [m E]. rewrite (Hp p m (In2 p Hin) E), E. cbn [option_map next].
      assert (X : eqO (lastor (ptrs n1) None) p = false).
      { apply eqO_false. intro W. apply lastor_in in W as [W|[_ W]]; [eapply Dis; eauto|discriminate]. }
      rewrite X. reflexivity.
  - rewrite Eps'. apply pseg_app. split.
    + eapply pseg_ext; [| |exact P1].
      * intros p Hin. destruct (Some1 p (In1 p Hin)) as [m E]. rewrite (Hp p m (In1 p Hin) E), E. cbn [option_map prev].
        assert (X : eqO (hdor l2 None) p = false).
        { apply eqO_false. intro W. destruct l2 as [|q r] eqn:El; [discriminate|]. injection W as ->. eapply Dis; [exact Hin|left; reflexivity]. }
        rewrite X. reflexivity.
      * intros p m d Hin E Ed J. apply in_app_or in J as [J|[<-|J]]; [apply in_or_app; auto| |apply in_or_app; auto].
        exfalso. eapply Pk; eauto.
    + cbn [pseg]. split.
      * intros m d E Ed J. rewrite Sk in E. injection E as <-. cbn [prev] in Ed. destruct (Hpv d Ed) as [V1 V2]. apply V1. rewrite Eps.
        apply in_app_or in J as [J|[J|J]]; [apply in_or_app; auto|congruence|apply in_or_app; auto].
      * destruct l2 as [|q r] eqn:El; [exact I|]. cbn [pseg] in P2 |- *. destruct P2 as [P2 P3].
        split.
           ++ intros m d E Ed J. destruct (Some1 q (In2 q (or_introl eq_refl))) as [m0 E0].
              rewrite (Hp q m0 (In2 q (or_introl eq_refl)) E0) in E. injection E as <-. cbn [prev hdor eqO] in Ed. rewrite Nat.eqb_refl in Ed. exact Ed.
           ++ eapply pseg_ext; [| |exact P3].
              ** intros p Hin. destruct (Some1 p (In2 p (or_intror Hin))) as [m E]. rewrite (Hp p m (In2 p (or_intror Hin)) E), E. cbn [option_map prev hdor eqO].
                 assert (X : Nat.eqb q p = false).
                 { apply Nat.eqb_neq. intros ->. apply NoDup_appr in ND. inversion ND; contradiction. }
                 rewrite X. reflexivity.
              ** intros p m d Hin E Ed J. apply in_app_or in J as [J|[<-|J]]; [apply in_or_app; auto| |apply in_or_app; auto].
                 exfalso. eapply Pk; [apply In2; right; exact Hin|exact E|exact Ed].
  - destruct tl as [t|].
    + intros x E. rewrite Eps'. intro J. destruct (He x E) as [V1 V2]. apply V1. rewrite Eps. apply in_app_or in J as [J|[J|J]]; [apply in_or_app; auto|congruence|apply in_or_app; auto].
    + right. exact He.
  - assert (V := l_vals _ _ _ _ _ _ L). unfold vals in *. rewrite Forall_forall in *. intros n J.
    assert (G : forall n, In n (n1 ++ n2) -> exists m, st' (fst n) = Some m /\ address m = fst (snd n) /\ size m = snd (snd n)).
    { intros n' J'. destruct (V n' J') as [m [X [Y Z]]].
      assert (K : In (fst n') ps) by (unfold ps; apply in_or_app; left; apply in_map, J').
      rewrite (Hp _ m K X). eexists. split; [reflexivity|]. auto. }
    apply in_app_or in J as [J|[<-|J]]; [apply G, in_or_app; auto| |apply G, in_or_app; auto].
    cbn [fst snd]. rewrite Sk. eexists. split; [reflexivity|]. auto.
Qed.

Definition inserted (ns : list block) (tl : option nat) (k : nat) (iv : Z * Z) (ns' : list block) : Prop :=
  (ns' = ns /\ tl <> None) \/ exists n1 n2, ns = n1 ++ n2 /\ ns' = n1 ++ (k, iv) :: n2.

(** A new block and the state it is to be inserted in. *)
Record newBlock (s : bfc) (ns : list block) (tl : option nat) (k : nat) (a z : Z) : Prop := {
  n_mem : mem s k = Some (MB a z None None);
  n_lt : (k < fresh s)%nat;
  n_out : ~ In k (ptrs ns ++ opt tl);
  n_prev : forall p m, In p (ptrs ns ++ opt tl) -> mem s p = Some m -> prev m <> Some k;
  n_last : last s <> Some k;
  n_pos : 0 < z;
  n_poss : Forall (fun x => 0 < snd x) (ivs ns);
  n_dis : Forall (disjoint (a, z)) (ivs ns) }.

Lemma vals_in st ns p : vals st ns -> In p (ptrs ns) -> exists m, st p = Some m /\ In (p, (address m, size m)) ns.
Proof.
  intros V J. apply in_map_iff in J as [[q [a z]] [<- J]]. unfold vals in V. rewrite Forall_forall in V. destruct (V _ J) as [m [A [B C]]].
  cbn [fst snd] in *. exists m. split; [exact A|]. subst. exact J.
Qed.

Lemma no_overlap s ns tl k a z p m mk : newBlock s ns tl k a z -> vals (mem s) ns -> In p (ptrs ns) -> mem s p = Some m ->
  mem s k = Some mk -> overlaps (Nat.eqb p k) m mk = false /\ overlaps (Nat.eqb k p) mk m = false /\ address m <> address mk.
Proof.
  intros NB V J E Ek. rewrite (n_mem _ _ _ _ _ _ NB) in Ek. injection Ek as <-.
  destruct (vals_in _ _ _ V J) as [m' [E' J']]. rewrite E in E'. injection E' as <-.
  assert (X : p <> k) by (intros ->; apply (n_out _ _ _ _ _ _ NB); apply in_or_app; auto).
  pose proof (n_dis _ _ _ _ _ _ NB) as D. pose proof (n_poss _ _ _ _ _ _ NB) as P. pose proof (n_pos _ _ _ _ _ _ NB) as Pz.
  rewrite Forall_forall in D, P. assert (J2 : In (address m, size m) (ivs ns)) by (apply (in_map snd) in J'; exact J').
  specialize (D _ J2). specialize (P _ J2). unfold disjoint in D. cbn [fst snd] in *. unfold overlaps, cap. cbn [address size].
  rewrite (proj2 (Nat.eqb_neq p k)) by exact X. rewrite (proj2 (Nat.eqb_neq k p)) by congruence.
  assert (address m <> a) by lia. rewrite (proj2 (Z.eqb_neq _ _)) by assumption. rewrite (proj2 (Z.eqb_neq a (address m))) by lia.
  repeat split; try assumption.
  - destruct (Z.ltb_spec (address m) a); apply Z.ltb_ge; lia.
  - destruct (Z.ltb_spec a (address m)); apply Z.ltb_ge; lia.
Qed.

(** Changing address and size of the block behind the good ones. *)
Lemma links_tail s ns t f s' : Links s ns (Some t) -> update s t f = Some s' ->
  (forall m, next (f m) = next m /\ prev (f m) = prev m) -> Links s' ns (Some t) /\ same s s'.
Proof.
  intros L U F. apply update_inv in U as [b [E ->]]. split; [|repeat split].
  assert (T : ~ In t (ptrs ns)).
  { pose proof (l_nodup _ _ _ _ _ _ L) as N. cbn [opt] in N. apply NoDup_remove_2 in N. rewrite app_nil_r in N. exact N. }
  unfold Links. cbn [withMem mem fresh first last].
  eapply links_frame; [exact L|lia| | | | |].
  - intros p m. destruct (Nat.eqb_spec p t) as [->|N]; [|apply (l_mem _ _ _ _ _ _ L)].
    intro X. injection X as <-. destruct (F b) as [_ ->]. apply (l_mem _ _ _ _ _ _ L _ _ E).
  - apply (l_last _ _ _ _ _ _ L).
  - intros p J. destruct (Nat.eqb_spec p t) as [->|N]; [|auto]. rewrite E. cbn [option_map]. destruct (F b) as [-> ->]. auto.
  - intros p J. destruct (Nat.eqb_spec p t) as [->|N]; [contradiction|auto].
  - apply (l_end _ _ _ _ _ _ L).
Qed.

Lemma in_ptrs_opt ns tl p : In p (ptrs ns ++ opt tl) -> In p (ptrs ns) \/ tl = Some p.
Proof. intro J. apply in_app_or in J as [J|J]; [auto|]. destruct tl as [t|]; [|destruct J]. destruct J as [->|[]]. auto. Qed.

Lemma next_in s ns tl p m q : Links s ns tl -> In p (ptrs ns ++ opt tl) -> mem s p = Some m -> next m = Some q ->
  exists n1 iv n2 l, ns = n1 ++ (p, iv) :: n2 /\ ptrs n2 ++ opt tl = q :: l.
Proof.
  intros L J E N. apply in_split in J as [l1 [l2 J]]. pose proof (l_next _ _ _ _ _ _ L) as C. rewrite J in C.
  apply cseg_app in C as [_ [[m' [A B]] _]]. rewrite E in A. injection A as <-. rewrite N in B.
  apply ptrs_split in J as [[n1 [iv [n2 [X [Y Z]]]]]|[X [Y Z]]]; [|subst; discriminate].
  subst l2. destruct (ptrs n2 ++ opt tl) as [|q' l] eqn:El; [discriminate|]. cbn [hdor] in B. injection B as ->. exists n1, iv, n2, l. auto.
Qed.
Lemma next_nil_tail s ns tl p m : Links s ns tl -> In p (ptrs ns ++ opt tl) -> mem s p = Some m -> tl = Some p -> next m = None.
Proof.
  intros L J E ->. destruct (next m) as [q|] eqn:N; [|reflexivity]. exfalso.
  destruct (next_in _ _ _ _ _ _ L J E N) as [n1 [iv [n2 [l [X Y]]]]]. pose proof (l_nodup _ _ _ _ _ _ L) as ND. subst ns.
  rewrite ptrs_app in ND. cbn [ptrs map fst] in ND. rewrite <- app_assoc in ND. cbn [app] in ND. apply NoDup_remove_2 in ND. apply ND.
  apply in_or_app. right. apply in_or_app. right. left. reflexivity.
Qed.

Lemma mid_lastor (n1 n2 : list block) k iv tl q l : ptrs n2 ++ opt tl = q :: l -> tl = None ->
  lastor (ptrs (n1 ++ (k, iv) :: n2)) None = lastor (ptrs (n1 ++ n2)) None.
Proof.
  intros E ->. cbn [opt] in E. rewrite app_nil_r in E. rewrite !ptrs_app, !lastor_app. cbn [ptrs map fst]. fold (ptrs n2).
  cbn [lastor]. rewrite E. reflexivity.
Qed.

Lemma insertLoop_links : forall fuel s ns tl k a z b s',
  Links s ns tl -> newBlock s ns tl k a z -> (forall p, b = Some p -> In p (ptrs ns ++ opt tl)) ->
  insertLoop fuel s b k = Some s' ->
  same s s' /\ fresh s' = fresh s /\ exists ns', Links s' ns' tl /\ inserted ns tl k (a, z) ns'.
Proof.
  induction fuel as [|fuel IH]; intros s ns tl k a z b s' L NB Hb R; [discriminate|]. destruct b as [pb|]; [|discriminate].
  cbn [insertLoop] in R. specialize (Hb pb eq_refl).
  apply bind_inv in R as [mb [Eb R]]. unfold deref in Eb. apply bind_inv in R as [mk [Ek R]]. unfold deref in Ek.
  set (ov := overlaps (Nat.eqb pb k) mb mk) in R.
  (* the block behind the good ones *)
  assert (T : ov = true \/ address mb = address mk -> exists t, tl = Some t /\ pb = t).
  { intro X. apply in_ptrs_opt in Hb as [Hb|Hb]; [|eauto]. exfalso.
    destruct (no_overlap _ _ _ _ _ _ _ _ _ NB (l_vals _ _ _ _ _ _ L) Hb Eb Ek) as [O1 [_ O2]]. unfold ov in X. destruct X; congruence. }
  assert (Same : forall f s', update s pb f = Some s' -> (forall m, next (f m) = next m /\ prev (f m) = prev m) -> (exists t, tl = Some t /\ pb = t) ->
    same s s' /\ fresh s' = fresh s /\ exists ns', Links s' ns' tl /\ inserted ns tl k (a, z) ns').
  { intros f s0 U F [t [-> ->]]. assert (Ff : fresh s0 = fresh s) by (apply update_inv in U as [? [_ ->]]; reflexivity).
    destruct (links_tail _ _ _ _ _ L U F) as [L' S']. split; [exact S'|]. split; [exact Ff|]. exists ns. split; [exact L'|]. left. split; [reflexivity|discriminate]. }
  assert (Stay : (exists t, tl = Some t /\ pb = t) -> same s s /\ fresh s = fresh s /\ exists ns', Links s ns' tl /\ inserted ns tl k (a, z) ns').
  { intros [t [-> ->]]. split; [apply same_refl|]. split; [reflexivity|]. exists ns. split; [exact L|]. left. split; [reflexivity|discriminate]. }
  destruct ((address mb <? address mk) && ov) eqn:B1.
  { apply andb_prop in B1 as [_ B1]. destruct (cap mk <=? cap mb).
    - injection R as <-. auto.
    - eapply Same; eauto. }
  destruct ((address mb <? address mk) && negb ov) eqn:B2.
  { apply andb_prop in B2 as [B2 B2']. apply bind_inv in R as [mn [En R]]. unfold derefO in En. apply bind_inv in En as [pn [Enx En]].
    destruct (next_in _ _ _ _ _ _ L Hb Eb Enx) as [n1 [iv [n2 [l [Ens El]]]]].
    destruct (cap mk <=? address mn).
    - rewrite Enx in R. clear Same Stay T IH.
      apply bind_inv in R as [s1 [U1 R]]. apply bind_inv in R as [s2 [U2 R]]. apply bind_inv in R as [s3 [U3 R]]. apply bind_inv in R as [s4 [U4 R]].
      injection R as <-. cbn [updateO bind] in U4.
      assert (Nbk : pb <> k) by (intros ->; apply (n_out _ _ _ _ _ _ NB); exact Hb).
      assert (Hn : In pn (ptrs ns ++ opt tl)).
      { rewrite Ens, ptrs_app. cbn [ptrs map fst]. fold (ptrs n2). rewrite <- app_assoc. cbn [app]. rewrite El. apply in_or_app. right. right. left. reflexivity. }
      assert (Nnk : pn <> k) by (intros ->; apply (n_out _ _ _ _ _ _ NB); exact Hn).
      assert (Nbn : pb <> pn).
      { intros ->. pose proof (l_nodup _ _ _ _ _ _ L) as ND. rewrite Ens, ptrs_app in ND. cbn [ptrs map fst] in ND. fold (ptrs n2) in ND.
        rewrite <- app_assoc in ND. cbn [app] in ND. rewrite El in ND. apply NoDup_remove_2 in ND. apply ND. apply in_or_app. right. left. reflexivity. }
      apply update_inv in U1 as [b1 [E1 ->]]. cbn [withMem mem] in U2. rewrite Eb in E1. injection E1 as <-.
      apply update_inv in U2 as [b2 [E2 ->]]. cbn [withMem mem] in U3, E2. rewrite (proj2 (Nat.eqb_neq k pb)) in E2 by congruence.
      rewrite (n_mem _ _ _ _ _ _ NB) in E2. injection E2 as <-.
      apply update_inv in U3 as [b3 [E3 ->]]. cbn [withMem mem] in U4, E3. rewrite Nat.eqb_refl in E3. injection E3 as <-.
      apply update_inv in U4 as [b4 [E4 ->]]. cbn [withMem mem] in E4.
      rewrite (proj2 (Nat.eqb_neq pn k)) in E4 by exact Nnk. rewrite (proj2 (Nat.eqb_neq pn pb)) in E4 by congruence. rewrite En in E4. injection E4 as <-.
      split; [repeat split|]. split; [reflexivity|]. exists ((n1 ++ [(pb, iv)]) ++ (k, (a, z)) :: n2).
      assert (Ens' : ns = (n1 ++ [(pb, iv)]) ++ n2) by (rewrite <- app_assoc; exact Ens).
      split; [|right; eauto].
      unfold Links. cbn [withMem withLen mem fresh first last setNext setPrev].
      match goal with |- links ?st _ _ _ _ _ => set (st' := st) end.
      assert (Lp : lastor (ptrs (n1 ++ [(pb, iv)])) None = Some pb) by (rewrite ptrs_app, lastor_app; reflexivity).
      assert (Ef : first s = hdor (ptrs ((n1 ++ [(pb, iv)]) ++ (k, (a, z)) :: n2) ++ opt tl) None).
      { rewrite (l_first _ _ _ _ _ _ L), Ens. rewrite <- !app_assoc. cbn [app]. rewrite !ptrs_app, <- !app_assoc. destruct (ptrs n1); reflexivity. }
      rewrite Ef. rewrite Ens' in L.
      apply (links_insert (mem s) (fresh s) (first s) (last s) (n1 ++ [(pb, iv)]) n2 tl k a z st' (last s) (Some pb) L).
      + apply (n_lt _ _ _ _ _ _ NB).
      + intro J. apply (n_out _ _ _ _ _ _ NB). rewrite Ens'. exact J.
      + intros p m J. apply (n_prev _ _ _ _ _ _ NB). rewrite Ens'. exact J.
      + intros p m. unfold st'. assert (G := fun p m => l_mem _ _ _ _ _ _ L p m).
        assert (Gk := n_lt _ _ _ _ _ _ NB). destruct (G pb _ Eb) as [Gb Gb']. destruct (G pn _ En) as [Gn _].
        destruct (Nat.eqb_spec p pn) as [->|X1].
        { intro X. injection X as <-. cbn [setPrev prev]. split; [exact Gn|]. intros d X. injection X as <-. exact Gk. }
        destruct (Nat.eqb_spec p k) as [->|X2].
        { intro X. injection X as <-. cbn [prev]. split; [exact Gk|]. intros d X. injection X as <-. exact Gb. }
        destruct (Nat.eqb_spec p pb) as [->|X3].
        { intro X. injection X as <-. cbn [prev]. auto. }
        apply G.
      + apply (l_last _ _ _ _ _ _ L).
      + unfold st'. rewrite (proj2 (Nat.eqb_neq k pn)) by congruence. rewrite Nat.eqb_refl. rewrite El. reflexivity.
      + intros d X. injection X as <-. rewrite Lp. auto.
      + intros p m J E. unfold st'. rewrite Lp. rewrite El. cbn [hdor eqO]. assert (J' : In p (ptrs ns ++ opt tl)) by (rewrite Ens'; exact J). clear J; rename J' into J.
        destruct (Nat.eqb_spec p pn) as [->|X1].
        { rewrite (proj2 (Nat.eqb_neq pb pn)) by exact Nbn. rewrite Nat.eqb_refl. rewrite En in E. injection E as <-. reflexivity. }
        rewrite (proj2 (Nat.eqb_neq pn p)) by congruence.
        rewrite (proj2 (Nat.eqb_neq p k)) by (intros ->; apply (n_out _ _ _ _ _ _ NB); exact J).
        destruct (Nat.eqb_spec p pb) as [->|X3].
        { rewrite Nat.eqb_refl. rewrite Eb in E. injection E as <-. reflexivity. }
        rewrite (proj2 (Nat.eqb_neq pb p)) by congruence. rewrite E. destruct m; reflexivity.
      + pose proof (l_end _ _ _ _ _ _ L) as Q. destruct tl as [t|].
        * intros x X. split; [apply Q, X|]. intros ->. apply (n_last _ _ _ _ _ _ NB). exact X.
        * rewrite (mid_lastor _ _ _ _ None pn l El eq_refl). destruct Q as [Q|Q]; [destruct n1; discriminate|]. exact Q.
    - eapply IH; [exact L|exact NB| |exact R]. intros p X. rewrite Enx in X. injection X as <-.
      rewrite Ens, ptrs_app. cbn [ptrs map fst]. fold (ptrs n2). rewrite <- app_assoc. cbn [app]. rewrite El. apply in_or_app. right. right. left. reflexivity. }
  destruct (address mb =? address mk) eqn:B3.
  { apply Z.eqb_eq in B3. destruct (size mk <? size mb); [injection R as <-; auto|]. eapply Same; eauto. }
  destruct ((address mk <? address mb) && ov) eqn:B4; [|discriminate]. apply andb_prop in B4 as [_ B4].
  assert (Fin : forall z1 z2 s', (do s0 <- update s pb (setAddr z1); update s0 pb (setSize z2)) = Some s' ->
    same s s' /\ fresh s' = fresh s /\ exists ns', Links s' ns' tl /\ inserted ns tl k (a, z) ns').
  { intros z1 z2 s0 U. apply bind_inv in U as [s1 [U1 U2]]. destruct (T (or_introl B4)) as [t [-> ->]].
    assert (F1 : fresh s1 = fresh s) by (apply update_inv in U1 as [? [_ ->]]; reflexivity).
    assert (F2 : fresh s0 = fresh s1) by (apply update_inv in U2 as [? [_ ->]]; reflexivity).
    destruct (links_tail _ _ _ _ _ L U1) as [L1 S1]; [auto|]. destruct (links_tail _ _ _ _ _ L1 U2) as [L2 S2]; [auto|].
    split; [eapply same_trans; eauto|]. split; [congruence|]. exists ns. split; [exact L2|]. left. split; [reflexivity|discriminate]. }
  destruct (cap mb <=? cap mk); eapply Fin; exact R.
Qed.

Lemma some_in s ns tl p : Links s ns tl -> In p (ptrs ns ++ opt tl) -> exists m, mem s p = Some m.
Proof.
  intros L J. apply in_split in J as [l1 [l2 J]]. pose proof (l_next _ _ _ _ _ _ L) as C. rewrite J in C.
  apply cseg_app in C as [_ [[m [A _]] _]]. eauto.
Qed.

Lemma insert_links s ns tl k a z s' :
  Links s ns tl -> newBlock s ns tl k a z -> insert s k = Some s' ->
  same s s' /\ fresh s' = fresh s /\ exists ns', Links s' ns' tl /\ inserted ns tl k (a, z) ns'.
Proof.
  intros L NB R. unfold insert in R. assert (Gk := n_lt _ _ _ _ _ _ NB). assert (G := fun p m => l_mem _ _ _ _ _ _ L p m).
  destruct (first s) as [pf|] eqn:Ef.
  2:{ injection R as <-. split; [repeat split|]. split; [reflexivity|].
      rewrite (l_first _ _ _ _ _ _ L) in Ef. destruct ns as [|n ns]; [|discriminate]. destruct tl as [t|]; [discriminate|].
      exists ([] ++ (k, (a, z)) :: []). split; [|right; exists [], []; auto].
      unfold Links. cbn [withLen withLast withFirst mem fresh first last].
      change (Some k) with (hdor (ptrs ([] ++ (k, (a, z)) :: []) ++ @opt nat None) None) at 1.
      apply (links_insert (mem s) (fresh s) (first s) (last s) [] [] None k a z (mem s) (Some k) None L); auto.
      - intros x X. injection X as <-. exact Gk.
      - apply (n_mem _ _ _ _ _ _ NB).
      - discriminate.
      - intros p m []. }
  assert (Hf : In pf (ptrs ns ++ opt tl)).
  { rewrite (l_first _ _ _ _ _ _ L) in Ef. destruct (ptrs ns ++ opt tl); [discriminate|]. injection Ef as ->. left. reflexivity. }
  apply bind_inv in R as [mk [Ek R]]. unfold deref in Ek. assert (Ek' := Ek). rewrite (n_mem _ _ _ _ _ _ NB) in Ek'. injection Ek' as <-.
  apply bind_inv in R as [ml [El R]]. unfold derefO in El. apply bind_inv in El as [pl [Epl El]].
  apply bind_inv in R as [mf [Emf R]]. unfold deref in Emf. rewrite Epl in R. cbn [eqO] in R.
  assert (Npl : pl <> k) by (intros ->; apply (n_last _ _ _ _ _ _ NB); exact Epl).
  destruct (address ml <=? address (MB a z None None)).
  { cbn [updateO bind] in R. destruct tl as [t|].
    - (* the end pointer is outside the list *)
      assert (Out := l_end _ _ _ _ _ _ L pl Epl). cbn beta iota in Out.
      assert (Fr : forall st' la', (forall p m, st' p = Some m -> (p < fresh s)%nat /\ (forall d, prev m = Some d -> (d < fresh s)%nat)) ->
        (forall p, p <> pl -> p <> k -> st' p = mem s p) -> (la' = Some pl \/ la' = Some k) -> links st' (fresh s) (first s) la' ns (Some t)).
      { intros st' la' M1 M2 M3. eapply links_frame; [exact L|lia|exact M1| | | |].
        - intros x X. destruct M3 as [->| ->]; injection X as <-; [apply (l_last _ _ _ _ _ _ L), Epl|exact Gk].
        - intros p J. rewrite M2; [auto| |]; intros ->; [contradiction|apply (n_out _ _ _ _ _ _ NB); exact J].
        - intros p J. assert (J' : In p (ptrs ns ++ opt (Some t))) by (apply in_or_app; auto). rewrite M2; [auto| |]; intros ->; [contradiction|apply (n_out _ _ _ _ _ _ NB); exact J'].
        - intros x X J. destruct M3 as [->| ->]; injection X as <-; [contradiction|apply (n_out _ _ _ _ _ _ NB); exact J]. }
      destruct (overlaps (Nat.eqb pl k) (MB a z None None) ml).
      + destruct (cap (MB a z None None) <? cap ml).
        * injection R as <-. split; [apply same_refl|]. split; [reflexivity|]. exists ns. split; [exact L|]. left. split; [reflexivity|discriminate].
        * apply update_inv in R as [b [Eb ->]]. split; [repeat split|]. split; [reflexivity|]. exists ns.
          split; [|left; split; [reflexivity|discriminate]]. unfold Links. cbn [withMem mem fresh first last]. rewrite Epl. apply Fr; auto.
          -- intros p m. destruct (Nat.eqb_spec p pl) as [->|X]; [|apply G]. intro X. injection X as <-. cbn [setSize prev]. apply (G _ _ Eb).
          -- intros p X1 X2. rewrite (proj2 (Nat.eqb_neq p pl)) by exact X1. reflexivity.
      + apply bind_inv in R as [s1 [U1 R]]. apply bind_inv in R as [s2 [U2 R]]. apply bind_inv in R as [s3 [U3 R]]. injection R as <-.
        apply update_inv in U1 as [b1 [E1 ->]]. rewrite El in E1. injection E1 as <-.
        apply update_inv in U2 as [b2 [E2 ->]]. cbn [withMem mem] in E2. rewrite (proj2 (Nat.eqb_neq k pl)) in E2 by congruence. rewrite Ek in E2. injection E2 as <-.
        apply update_inv in U3 as [b3 [E3 ->]]. cbn [withMem mem] in E3. rewrite Nat.eqb_refl in E3. injection E3 as <-.
        split; [repeat split|]. split; [reflexivity|]. exists ns. split; [|left; split; [reflexivity|discriminate]].
        unfold Links. cbn [withMem withLen withLast mem fresh first last setNext setPrev]. apply Fr; auto.
        * intros p m. destruct (Nat.eqb_spec p k) as [->|X1].
          { intro X. injection X as <-. cbn [prev]. split; [exact Gk|]. intros d X. injection X as <-. apply (l_last _ _ _ _ _ _ L), Epl. }
          destruct (Nat.eqb_spec p pl) as [->|X2]; [|apply G]. intro X. injection X as <-. cbn [prev]. apply (G _ _ El).
        * intros p X1 X2. rewrite (proj2 (Nat.eqb_neq p pl)) by exact X1. rewrite (proj2 (Nat.eqb_neq p k)) by exact X2. reflexivity.
    - assert (Hl : lastor (ptrs ns) None = Some pl).
      { destruct (l_end _ _ _ _ _ _ L) as [->|X]; [destruct Hf|]. congruence. }
      assert (Jl : In pl (ptrs ns)) by (apply lastor_in in Hl as [Hl|[_ Hl]]; [exact Hl|discriminate]).
      destruct (no_overlap _ _ _ _ _ _ _ _ _ NB (l_vals _ _ _ _ _ _ L) Jl El Ek) as [_ [O _]]. rewrite Nat.eqb_sym in O. rewrite O in R.
      apply bind_inv in R as [s1 [U1 R]]. apply bind_inv in R as [s2 [U2 R]]. apply bind_inv in R as [s3 [U3 R]]. injection R as <-.
      apply update_inv in U1 as [b1 [E1 ->]]. rewrite El in E1. injection E1 as <-.
      apply update_inv in U2 as [b2 [E2 ->]]. cbn [withMem mem] in E2. rewrite (proj2 (Nat.eqb_neq k pl)) in E2 by congruence. rewrite Ek in E2. injection E2 as <-.
      apply update_inv in U3 as [b3 [E3 ->]]. cbn [withMem mem] in E3. rewrite Nat.eqb_refl in E3. injection E3 as <-.
      split; [repeat split|]. split; [reflexivity|]. exists (ns ++ (k, (a, z)) :: []).
      split; [|right; exists ns, []; split; [rewrite app_nil_r|]; reflexivity].
      unfold Links. cbn [withMem withLen withLast mem fresh first last setNext setPrev].
      assert (Ef' : first s = hdor (ptrs (ns ++ (k, (a, z)) :: []) ++ opt None) None).
      { rewrite Ef. rewrite (l_first _ _ _ _ _ _ L) in Ef. rewrite ptrs_app. destruct ns; [destruct Hf|]. symmetry. exact Ef. }
      rewrite Ef'. rewrite <- (app_nil_r ns) in L.
      match goal with |- links ?st _ _ _ _ _ => set (st' := st) end.
      apply (links_insert (mem s) (fresh s) (first s) (last s) ns [] None k a z st' (Some k) (Some pl) L).
      + exact Gk.
      + rewrite (app_nil_r ns). apply (n_out _ _ _ _ _ _ NB).
      + rewrite (app_nil_r ns). apply (n_prev _ _ _ _ _ _ NB).
      + intros p m. unfold st'. destruct (Nat.eqb_spec p k) as [->|X1].
        { intro X. injection X as <-. cbn [prev]. split; [exact Gk|]. intros d X. injection X as <-. apply (l_last _ _ _ _ _ _ L), Epl. }
        destruct (Nat.eqb_spec p pl) as [->|X2]; [|apply G]. intro X. injection X as <-. cbn [prev]. apply (G _ _ El).
      + intros x X. injection X as <-. exact Gk.
      + unfold st'. rewrite Nat.eqb_refl. reflexivity.
      + intros d X. injection X as <-. rewrite Hl. auto.
      + intros p m J E. unfold st'. rewrite Hl. cbn [ptrs map app opt hdor eqO]. rewrite (app_nil_r ns) in J.
        rewrite (proj2 (Nat.eqb_neq p k)) by (intros ->; apply (n_out _ _ _ _ _ _ NB); exact J).
        destruct (Nat.eqb_spec p pl) as [->|X3].
        { rewrite Nat.eqb_refl. rewrite El in E. injection E as <-. reflexivity. }
        rewrite (proj2 (Nat.eqb_neq pl p)) by congruence. rewrite E. destruct m; reflexivity.
      + rewrite ptrs_app, lastor_app. reflexivity. }
  destruct (address (MB a z None None) <? address mf).
  { destruct (overlaps (Nat.eqb k pf) (MB a z None None) mf) eqn:O.
    - assert (exists t, tl = Some t /\ pf = t) as [t [-> ->]].
      { apply in_ptrs_opt in Hf as [Hf|Hf]; [|eauto]. exfalso.
        destruct (no_overlap _ _ _ _ _ _ _ _ _ NB (l_vals _ _ _ _ _ _ L) Hf Emf Ek) as [_ [O1 _]]. congruence. }
      destruct (cap mf <? cap (MB a z None None)).
      + injection R as <-. split; [apply same_refl|]. split; [reflexivity|]. exists ns. split; [exact L|]. left. split; [reflexivity|discriminate].
      + assert (F1 : fresh s' = fresh s) by (apply update_inv in R as [? [_ ->]]; reflexivity).
        destruct (links_tail _ _ _ _ _ L R) as [L1 S1]; [auto|]. split; [exact S1|]. split; [exact F1|]. exists ns. split; [exact L1|]. left. split; [reflexivity|discriminate].
    - apply bind_inv in R as [s1 [U1 R]]. apply bind_inv in R as [s2 [U2 R]]. injection R as <-.
      assert (Nfk : pf <> k) by (intros ->; apply (n_out _ _ _ _ _ _ NB); exact Hf).
      apply update_inv in U1 as [b1 [E1 ->]]. rewrite Emf in E1. injection E1 as <-.
      apply update_inv in U2 as [b2 [E2 ->]]. cbn [withMem mem] in E2. rewrite (proj2 (Nat.eqb_neq k pf)) in E2 by congruence. rewrite Ek in E2. injection E2 as <-.
      split; [repeat split|]. split; [reflexivity|]. exists ([] ++ (k, (a, z)) :: ns).
      split; [|right; exists [], ns; auto].
      unfold Links. cbn [withMem withLen withFirst mem fresh first last setNext setPrev].
      match goal with |- links ?st _ _ _ _ _ => set (st' := st) end.
      change (links st' (fresh s) (hdor (ptrs ([] ++ (k, (a, z)) :: ns) ++ opt tl) None) (last s) ([] ++ (k, (a, z)) :: ns) tl).
      assert (Eh : hdor (ptrs ns ++ opt tl) None = Some pf) by (rewrite <- (l_first _ _ _ _ _ _ L); exact Ef).
      apply (links_insert (mem s) (fresh s) (first s) (last s) [] ns tl k a z st' (last s) None L).
      + exact Gk.
      + apply (n_out _ _ _ _ _ _ NB).
      + apply (n_prev _ _ _ _ _ _ NB).
      + intros p m. unfold st'. destruct (Nat.eqb_spec p k) as [->|X1].
        { intro X. injection X as <-. cbn [prev]. split; [exact Gk|discriminate]. }
        destruct (Nat.eqb_spec p pf) as [->|X2]; [|apply G]. intro X. injection X as <-. cbn [prev]. split; [exact (proj1 (G _ _ Emf))|intros d X; cbn [prev] in X; injection X as <-; exact Gk].
      + apply (l_last _ _ _ _ _ _ L).
      + unfold st'. rewrite Nat.eqb_refl. rewrite Eh. reflexivity.
      + discriminate.
      + intros p m J E. unfold st'. rewrite Eh. cbn [ptrs map lastor eqO].
        rewrite (proj2 (Nat.eqb_neq p k)) by (intros ->; apply (n_out _ _ _ _ _ _ NB); exact J).
        destruct (Nat.eqb_spec p pf) as [->|X3].
        { rewrite Nat.eqb_refl. rewrite Emf in E. injection E as <-. reflexivity. }
        rewrite (proj2 (Nat.eqb_neq pf p)) by congruence. rewrite E. destruct m; reflexivity.
      + pose proof (l_end _ _ _ _ _ _ L) as Q. destruct tl as [t|].
        * intros x X. split; [apply Q, X|]. intros ->. apply (n_last _ _ _ _ _ _ NB). exact X.
        * destruct Q as [->|Q]; [destruct Hf|]. destruct ns as [|n ns]; [destruct Hf|]. rewrite Q. reflexivity. }
  eapply insertLoop_links; [exact L|exact NB| |exact R]. intros p X. injection X as <-. exact Hf.
Qed.

(** ** A block whose removal fails *)
Definition endT (s : bfc) (t : nat) : Prop := last s <> Some t /\ exists m, mem s t = Some m /\ next m = None.
Lemma update_end s p f s' t : update s p f = Some s' -> endT s t -> (p <> t \/ forall m, next (f m) = next m) -> endT s' t /\ last s' = last s.
Proof.
  intros U [L [m [E N]]] H. apply update_inv in U as [b [Eb ->]]. split; [|reflexivity]. split; [exact L|]. cbn [withMem mem].
  destruct (Nat.eqb_spec t p) as [->|X]; [|eauto]. destruct H as [H|H]; [congruence|]. rewrite E in Eb. injection Eb as <-.
  exists (f m). split; [reflexivity|]. rewrite H. exact N.
Qed.
Lemma insertLoop_end : forall fuel s b k s' t, insertLoop fuel s b k = Some s' -> endT s t -> t <> k -> endT s' t.
Proof.
  induction fuel as [|fuel IH]; intros s b k s' t R T N; [discriminate|]. destruct b as [pb|]; [|discriminate]. cbn [insertLoop] in R.
  apply bind_inv in R as [mb [Eb R]]. unfold deref in Eb. apply bind_inv in R as [mk [Ek R]]. cbv zeta in R.
  set (ov := overlaps (Nat.eqb pb k) mb mk) in R.
  destruct ((address mb <? address mk) && ov).
  { destruct (cap mk <=? cap mb); [injection R as <-; exact T|]. eapply update_end; eauto. }
  destruct ((address mb <? address mk) && negb ov).
  { apply bind_inv in R as [mn [En R]]. unfold derefO in En. apply bind_inv in En as [pn [Enx En]].
    destruct (cap mk <=? address mn); [|eapply IH; eauto]. rewrite Enx in R.
    apply bind_inv in R as [s1 [U1 R]]. apply bind_inv in R as [s2 [U2 R]]. apply bind_inv in R as [s3 [U3 R]]. apply bind_inv in R as [s4 [U4 R]].
    injection R as <-. cbn [updateO bind] in U4.
    assert (pb <> t) by (intros ->; destruct T as [_ [m [E X]]]; congruence).
    destruct (update_end _ _ _ _ _ U1 T) as [T1 _]; [auto|]. destruct (update_end _ _ _ _ _ U2 T1) as [T2 _]; [left; congruence|].
    destruct (update_end _ _ _ _ _ U3 T2) as [T3 _]; [left; congruence|]. destruct (update_end _ _ _ _ _ U4 T3) as [T4 _]; [right; reflexivity|].
    exact T4. }
  destruct (address mb =? address mk).
  { destruct (size mk <? size mb); [injection R as <-; exact T|]. eapply update_end; eauto. }
  destruct ((address mk <? address mb) && ov); [|discriminate].
  destruct (cap mb <=? cap mk); apply bind_inv in R as [s1 [U1 R]]; (destruct (update_end _ _ _ _ _ U1 T) as [T1 _]; [right; reflexivity|]);
    eapply update_end; eauto.
Qed.
Lemma insert_end s k s' t : insert s k = Some s' -> endT s t -> first s <> None -> t <> k -> endT s' t.
Proof.
  intros R T F N. unfold insert in R. destruct (first s) as [pf|]; [|congruence].
  apply bind_inv in R as [mk [Ek R]]. apply bind_inv in R as [ml [El R]]. unfold derefO in El. apply bind_inv in El as [pl [Epl El]].
  apply bind_inv in R as [mf [Emf R]]. assert (pl <> t) by (intros ->; destruct T as [T _]; congruence).
  destruct (address ml <=? address mk).
  { rewrite Epl in R. cbn [updateO bind] in R. destruct (overlaps (eqO (Some pl) k) mk ml).
    - destruct (cap mk <? cap ml); [injection R as <-; exact T|]. eapply update_end; eauto.
    - apply bind_inv in R as [s1 [U1 R]]. apply bind_inv in R as [s2 [U2 R]]. apply bind_inv in R as [s3 [U3 R]]. injection R as <-.
      destruct (update_end _ _ _ _ _ U1 T) as [T1 _]; [auto|]. destruct (update_end _ _ _ _ _ U2 T1) as [T2 _]; [left; congruence|].
      destruct (update_end _ _ _ _ _ U3 T2) as [[_ T3] _]; [left; congruence|]. split; [|exact T3]. cbn [withLen withLast last]. congruence. }
  destruct (address mk <? address mf).
  { destruct (overlaps (Nat.eqb k pf) mk mf).
    - destruct (cap mf <? cap mk); [injection R as <-; exact T|]. eapply update_end; eauto.
    - apply bind_inv in R as [s1 [U1 R]]. apply bind_inv in R as [s2 [U2 R]]. injection R as <-.
      destruct (update_end _ _ _ _ _ U1 T) as [T1 _]; [auto|]. destruct (update_end _ _ _ _ _ U2 T1) as [T2 _]; [left; congruence|]. exact T2. }
  eapply insertLoop_end; eauto.
Qed.
Lemma remove_end s t : endT s t -> remove s t = None.
Proof.
  intros T. destruct (remove s t) as [s'|] eqn:R; [|reflexivity]. exfalso. unfold remove in R.
  apply bind_inv in R as [m [E R]]. apply bind_inv in R as [s1 [U1 R]]. apply bind_inv in R as [m1 [E1 R]]. apply bind_inv in R as [s2 [U2 R]].
  assert (T1 : endT s1 t).
  { unfold deref in E. destruct T as [L [m0 [E0 N0]]]. rewrite E in E0. injection E0 as <-. destruct (eqO (first s) t).
    - injection U1 as <-. split; [exact L|]. exists m. auto.
    - apply updateO_inv in U1 as [q [_ U1]]. apply update_inv in U1 as [b [Eb ->]]. split; [exact L|]. cbn [withMem mem].
      destruct (Nat.eqb_spec t q) as [->|X]; [|eauto]. eexists. split; [reflexivity|]. exact N0. }
  destruct T1 as [L [m0 [E0 N0]]]. unfold deref in E1. rewrite E1 in E0. injection E0 as <-.
  rewrite (proj2 (eqO_false (last s1) t) L) in U2. rewrite N0 in U2. discriminate.
Qed.

(** ** Removing *)
Lemma links_cut st fr fi la n1 g iv n2 tl st' la' m0 :
  links st fr fi la (n1 ++ (g, iv) :: n2) tl ->
  (forall p m, st' p = Some m -> (p < fr)%nat /\ (forall d, prev m = Some d -> (d < fr)%nat)) ->
  (forall x, la' = Some x -> (x < fr)%nat) ->
  st' g = Some m0 -> next m0 = None -> prev m0 = None ->
  (forall p, In p (ptrs n1) -> st' p = st p) ->
  (forall x, la' = Some x -> ~ In x (ptrs n1 ++ [g])) ->
  links st' fr fi la' n1 (Some g).
Proof.
  intros [A B C D E F G H] Hm Hl Sg N1 N2 Hp He.
  assert (Eps : ptrs (n1 ++ (g, iv) :: n2) ++ opt tl = (ptrs n1 ++ [g]) ++ ptrs n2 ++ opt tl).
  { rewrite ptrs_app. cbn [ptrs map fst]. rewrite <- !app_assoc. reflexivity. }
  rewrite Eps in *. split; auto; cbn [opt].
  - apply NoDup_appl in C. exact C.
  - rewrite <- app_assoc in D. apply cseg_app in D as [D _]. apply cseg_app. split.
    + eapply cseg_ext; [|exact D]. intros p J. rewrite Hp by exact J. reflexivity.
    + cbn [cseg]. split; [|exact I]. exists m0. auto.
  - apply pseg_app in E as [E _]. apply pseg_app in E as [E _]. apply pseg_app. split.
    + eapply pseg_ext; [| |exact E]; [intros p J; rewrite Hp by exact J; reflexivity|]. intros p m d J X Y W. apply in_or_app. left. exact W.
    + cbn [pseg]. split; [|exact I]. intros m d X Y. rewrite Sg in X. injection X as <-. congruence.
  - rewrite F. rewrite hdor_app. destruct (ptrs n1); reflexivity.
  - unfold vals in *. rewrite Forall_forall in *. intros n J. assert (J1 : In (fst n) (ptrs n1)) by (apply in_map, J).
    rewrite Hp by exact J1. apply H. apply in_or_app. auto.
Qed.

Lemma links_remove st fr fi la n1 g iv n2 tl st' la' pv :
  links st fr fi la (n1 ++ (g, iv) :: n2) tl ->
  let l2 := ptrs n2 ++ opt tl in
  (forall p m, st' p = Some m -> (p < fr)%nat /\ (forall d, prev m = Some d -> (d < fr)%nat)) ->
  (forall x, la' = Some x -> (x < fr)%nat) ->
  (forall p m, In p (ptrs n1 ++ l2) -> st p = Some m ->
     st' p = Some (MB (address m) (size m) (if eqO (lastor (ptrs n1) None) p then hdor l2 None else next m)
                                           (if eqO (hdor l2 None) p then pv else prev m))) ->
  (forall d, pv = Some d -> In d (ptrs n1 ++ l2) -> lastor (ptrs n1) None = Some d) ->
  match tl with None => n1 ++ n2 = [] \/ la' = lastor (ptrs (n1 ++ n2)) None
              | Some _ => forall x, la' = Some x -> ~ In x (ptrs n1 ++ l2) end ->
  links st' fr (hdor (ptrs (n1 ++ n2) ++ opt tl) None) la' (n1 ++ n2) tl.
Proof.
  intros L l2 Hm Hl Hp Hpv He.
  assert (Eps : ptrs (n1 ++ (g, iv) :: n2) ++ opt tl = ptrs n1 ++ g :: l2).
  { rewrite ptrs_app. cbn [ptrs map fst]. rewrite <- app_assoc. reflexivity. }
  assert (Eps' : ptrs (n1 ++ n2) ++ opt tl = ptrs n1 ++ l2) by (unfold l2; rewrite ptrs_app, <- app_assoc; reflexivity).
  pose proof (l_nodup _ _ _ _ _ _ L) as ND. rewrite Eps in ND. assert (ND' := NoDup_remove_1 _ _ _ ND).
  pose proof (l_next _ _ _ _ _ _ L) as C. rewrite Eps in C. apply cseg_app in C as [C1 [_ C2]]. 
  pose proof (l_prev _ _ _ _ _ _ L) as P. rewrite Eps in P. apply pseg_app in P as [P1 [_ P2]].
  assert (Sm : forall p, In p (ptrs n1 ++ l2) -> exists m, st p = Some m).
  { intros p J. assert (J' : In p (ptrs n1 ++ g :: l2)) by (apply in_app_or in J as [J|J]; apply in_or_app; [auto|right; right; exact J]).
    pose proof (l_next _ _ _ _ _ _ L) as C. rewrite Eps in C. apply in_split in J' as [x [y X]]. rewrite X in C. apply cseg_app in C as [_ [[m [A _]] _]]. eauto. }
  assert (In1 : forall p, In p (ptrs n1) -> In p (ptrs n1 ++ l2)) by (intros; apply in_or_app; auto).
  assert (In2 : forall p, In p l2 -> In p (ptrs n1 ++ l2)) by (intros; apply in_or_app; auto).
  assert (Dis : forall p, In p (ptrs n1) -> In p l2 -> False).
  { intros p A1 A2. apply in_split in A1 as [x [y X]]. rewrite X in ND'. rewrite <- app_assoc in ND'. cbn [app] in ND'.
    apply NoDup_remove_2 in ND'. apply ND'. rewrite app_assoc. apply in_or_app. right. exact A2. }
  split; auto; try rewrite Eps'; auto.
  - apply cseg_app. split.
    + eapply cseg_relink; [|exact C1|].
      * apply NoDup_appl in ND'. exact ND'.
      * intros p J. destruct (Sm p (In1 p J)) as [m E]. eexists; eexists. split; [exact E|]. split; [apply (Hp p m (In1 p J) E)|]. reflexivity.
    + eapply cseg_ext; [|exact C2]. intros p J. destruct (Sm p (In2 p J)) as [m E]. rewrite (Hp p m (In2 p J) E), E. cbn [option_map next].
      assert (X : eqO (lastor (ptrs n1) None) p = false).
      { apply eqO_false. intro W. apply lastor_in in W as [W|[_ W]]; [eapply Dis; eauto|discriminate]. }
      rewrite X. reflexivity.
  - assert (W : forall d, In d (ptrs n1 ++ l2) -> In d (ptrs n1 ++ g :: l2)).
    { intros d J. apply in_app_or in J as [J|J]; apply in_or_app; [auto|right; right; exact J]. }
    apply pseg_app. split.
    + eapply pseg_ext; [| |exact P1].
      * intros p J. destruct (Sm p (In1 p J)) as [m E]. rewrite (Hp p m (In1 p J) E), E. cbn [option_map prev].
        assert (X : eqO (hdor l2 None) p = false).
        { apply eqO_false. intro V. destruct l2 as [|q r] eqn:El; [discriminate|]. injection V as ->. eapply Dis; [exact J|left; reflexivity]. }
        rewrite X. reflexivity.
      * intros p m d J E Ed. apply W.
    + destruct l2 as [|q r] eqn:El; [exact I|]. cbn [pseg] in P2 |- *. destruct P2 as [_ P3]. split.
      * intros m d E Ed J. destruct (Sm q (In2 q (or_introl eq_refl))) as [mq Eq].
        rewrite (Hp q mq (In2 q (or_introl eq_refl)) Eq) in E. injection E as <-. cbn [prev hdor eqO] in Ed. rewrite Nat.eqb_refl in Ed. apply Hpv; assumption.
      * eapply pseg_ext; [| |exact P3].
        -- intros p J. destruct (Sm p (In2 p (or_intror J))) as [m E]. rewrite (Hp p m (In2 p (or_intror J)) E), E. cbn [option_map prev hdor eqO].
           assert (X : Nat.eqb q p = false).
           { apply Nat.eqb_neq. intros ->. apply NoDup_appr in ND'. inversion ND'; contradiction. }
           rewrite X. reflexivity.
        -- intros p m d J E Ed. apply W.
  - assert (V := l_vals _ _ _ _ _ _ L). unfold vals in *. rewrite Forall_forall in *. intros n J.
    assert (J' : In n (n1 ++ (g, iv) :: n2)) by (apply in_app_or in J as [J|J]; apply in_or_app; [auto|right; right; exact J]).
    destruct (V n J') as [m [X [Y Z]]]. assert (K : In (fst n) (ptrs n1 ++ l2)).
    { rewrite <- Eps'. apply in_or_app. left. apply in_map, J. }
    rewrite (Hp _ m K X). eexists. split; [reflexivity|]. auto.
Qed.

Lemma lastor_cons {A} (l : list A) x d d' : lastor (x :: l) d = lastor (x :: l) d'.
Proof. reflexivity. Qed.

Lemma remove_links s ns tl g s' : Links s ns tl -> In g (ptrs ns ++ opt tl) -> remove s g = Some s' ->
  same s s' /\ fresh s' = fresh s /\ (forall p m, mem s p = Some m -> exists m', mem s' p = Some m' /\ address m' = address m) /\
  exists n1 iv n2 ns' tl', ns = n1 ++ (g, iv) :: n2 /\ Links s' ns' tl' /\
    (ns' = n1 ++ n2 \/ ns' = n1).
Proof.
  intros L J R.
  assert (NT : tl <> Some g).
  { intros ->. rewrite remove_end in R; [discriminate|]. split.
    - intro X. exact (l_end _ _ _ _ _ _ L _ X J).
    - destruct (some_in _ _ _ _ L J) as [m E]. exists m. split; [exact E|]. eapply next_nil_tail; eauto. }
  assert (J0 := J). apply in_split in J0 as [l1 [l2 Eps]]. apply ptrs_split in Eps as [[n1 [iv [n2 [En [-> ->]]]]]|[Y _]]; [|congruence]. subst ns.
  assert (Eps : ptrs (n1 ++ (g, iv) :: n2) ++ opt tl = ptrs n1 ++ g :: ptrs n2 ++ opt tl).
  { rewrite ptrs_app. cbn [ptrs map fst]. rewrite <- app_assoc. reflexivity. }
  set (l2 := ptrs n2 ++ opt tl) in *.
  pose proof (l_nodup _ _ _ _ _ _ L) as ND. rewrite Eps in ND. assert (Ng := NoDup_remove_2 _ _ _ ND). assert (ND' := NoDup_remove_1 _ _ _ ND).
  assert (G := fun p m => l_mem _ _ _ _ _ _ L p m).
  unfold remove in R. apply bind_inv in R as [m [E R]]. unfold deref in E.
  assert (Nx : next m = hdor l2 None).
  { pose proof (l_next _ _ _ _ _ _ L) as C. rewrite Eps in C. apply cseg_app in C as [_ [[m' [A B]] _]]. rewrite E in A. injection A as <-. exact B. }
  assert (Pv : forall d, prev m = Some d -> In d (ptrs n1 ++ g :: l2) -> lastor (ptrs n1) None = Some d).
  { pose proof (l_prev _ _ _ _ _ _ L) as P. rewrite Eps in P. apply pseg_app in P as [_ [P _]]. intros d X Y. exact (P m d E X Y). }
  assert (Gg := proj1 (G _ _ E)). assert (Gp := proj2 (G _ _ E)).
  assert (Up2 : forall sa sb sc, update sa g (setNext None) = Some sb -> update sb g (setPrev None) = Some sc ->
    exists b, mem sa g = Some b /\ (forall q, mem sc q = if Nat.eqb q g then Some (MB (address b) (size b) None None) else mem sa q) /\
      fresh sc = fresh sa /\ first sc = first sa /\ last sc = last sa /\ same sa sc).
  { intros sa sb sc U V. apply update_inv in U as [b [Eb ->]]. apply update_inv in V as [b' [Eb' ->]]. cbn [withMem mem] in Eb'. rewrite Nat.eqb_refl in Eb'. injection Eb' as <-.
    exists b. split; [exact Eb|]. split; [|repeat split]. intro q. cbn [withMem mem]. destruct (Nat.eqb q g); reflexivity. }
  apply bind_inv in R as [s1 [U1 R]]. apply bind_inv in R as [m1 [E1 R]]. unfold deref in E1. apply bind_inv in R as [s2 [U2 R]].
  apply bind_inv in R as [s3 [U3 R]]. apply bind_inv in R as [s4 [U4 R]]. injection R as <-.
  destruct (Up2 _ _ _ U3 U4) as [b [Eb [M4 [F4 [I4 [A4 S4]]]]]]. clear U3 U4 Up2.
  assert (Hd : forall q, hdor l2 None = Some q -> In q l2) by (intros q X; destruct l2; [discriminate|]; injection X as ->; left; reflexivity).
  (* the four final memories *)
  destruct (eqO (first s) g) eqn:B1.
  - (* first *)
    injection U1 as <-. cbn [withFirst mem last] in *. rewrite E in E1. injection E1 as <-.
    assert (n1 = []).
    { apply eqO_spec in B1. rewrite (l_first _ _ _ _ _ _ L), Eps in B1. destruct n1 as [|[q jv] n1]; [reflexivity|]. cbn in B1. injection B1 as ->.
      exfalso. apply Ng. left. reflexivity. }
    subst n1. cbn [ptrs map app] in *.
    destruct (eqO (last s) g) eqn:B2.
    + injection U2 as <-. cbn [withLast mem last fresh first] in *.
      assert (l2 = []).
      { apply eqO_spec in B2. destruct tl as [t|].
        - exfalso. apply (l_end _ _ _ _ _ _ L g B2). left. reflexivity.
        - destruct (l_end _ _ _ _ _ _ L) as [X|X]; [discriminate|]. rewrite X in B2. cbn [ptrs map fst] in B2. unfold l2 in *. cbn [opt] in *. rewrite app_nil_r in *.
          destruct n2 as [|n n2]; [reflexivity|]. exfalso. cbn [lastor] in B2. apply lastor_in in B2 as [B2|[Y _]]; [|discriminate]. contradiction. }
      split; [destruct S4 as (?&?&?&?&?&?&?&?); repeat split; assumption|]. split; [exact F4|].
      split.
      { intros p mp0 Ep. cbn [withLen mem]. rewrite M4. destruct (Nat.eqb_spec p g) as [->|X]; [|eauto]. eexists. split; [reflexivity|].
        cbn [address]. cbn [withFirst mem] in Eb. rewrite Eb in Ep. injection Ep as <-. reflexivity. }
      exists [], iv, n2, ([] ++ n2), tl. split; [reflexivity|]. split; [|left; reflexivity].
      unfold Links. cbn [withLen mem fresh first last]. rewrite I4, A4, F4. rewrite Nx.
      apply (links_remove (mem s) (fresh s) (first s) (last s) [] g iv n2 tl (mem s4) (prev m) None L).
      * intros p mq X. rewrite M4 in X. destruct (Nat.eqb_spec p g) as [->|Y]; [injection X as <-; cbn [prev]; split; [exact Gg|discriminate]|]. apply G, X.
      * intros x X. apply Gp, X.
      * cbn [ptrs map app]. intros p mq X. fold l2 in X. rewrite H in X. destruct X.
      * discriminate.
      * fold l2. rewrite H. destruct tl as [t|]; [|left; destruct n2; [reflexivity|discriminate]]. unfold l2 in H. destruct (ptrs n2); discriminate.
    + apply updateO_inv in U2 as [q [Eq U2]]. rewrite Nx in Eq. assert (Jq := Hd q Eq). apply update_inv in U2 as [mq [Emq ->]]. cbn [withFirst withMem mem last fresh first] in *.
      assert (Nqg : q <> g) by (intros ->; contradiction).
      split; [destruct S4 as (?&?&?&?&?&?&?&?); repeat split; assumption|]. split; [exact F4|].
      split.
      { intros p mp0 Ep. cbn [withLen mem]. rewrite M4. destruct (Nat.eqb_spec p g) as [->|X].
        - eexists. split; [reflexivity|]. cbn [address]. destruct (Nat.eqb_spec g q); [congruence|]. rewrite Eb in Ep. injection Ep as <-. reflexivity.
        - destruct (Nat.eqb_spec p q) as [->|Y]; [|eauto]. eexists. split; [reflexivity|]. rewrite Emq in Ep. injection Ep as <-. reflexivity. }
      exists [], iv, n2, ([] ++ n2), tl. split; [reflexivity|]. split; [|left; reflexivity].
      unfold Links. cbn [withLen mem fresh first last]. rewrite I4, A4, F4. rewrite Nx.
      apply (links_remove (mem s) (fresh s) (first s) (last s) [] g iv n2 tl (mem s4) (last s) (prev m) L).
      * intros p mp0 X. rewrite M4 in X. destruct (Nat.eqb_spec p g) as [->|Y]; [injection X as <-; cbn [prev]; split; [exact Gg|discriminate]|].
        destruct (Nat.eqb_spec p q) as [->|Z]; [|apply G, X]. injection X as <-. cbn [setPrev prev]. split; [exact (proj1 (G _ _ Emq))|exact Gp].
      * apply (l_last _ _ _ _ _ _ L).
      * cbn [ptrs map app lastor]. fold l2. intros p mp0 X Ep. rewrite M4. rewrite (proj2 (Nat.eqb_neq p g)) by (intros ->; contradiction). cbn [eqO]. rewrite Eq. cbn [eqO].
        rewrite (Nat.eqb_sym q p). destruct (Nat.eqb_spec p q) as [->|Y]; [rewrite Emq in Ep; injection Ep as <-; reflexivity|]. rewrite Ep. destruct mp0; reflexivity.
      * intros d X Y. apply Pv; [exact X|]. right. exact Y.
      * pose proof (l_end _ _ _ _ _ _ L) as Q. destruct tl as [t|].
        -- intros x X Y. apply (Q x X). right. exact Y.
        -- destruct Q as [Q|Q]; [discriminate|]. right. rewrite Q. cbn [app ptrs map fst lastor]. fold (ptrs n2). unfold l2 in Jq. cbn [opt] in Jq. rewrite app_nil_r in Jq.
           destruct (ptrs n2); [destruct Jq|]. reflexivity.
  - (* not first *)
    apply updateO_inv in U1 as [d [Ed U1]]. apply update_inv in U1 as [md [Emd ->]]. cbn [withMem mem last] in *.
    assert (N1 : ptrs n1 <> []).
    { intro X. apply eqO_false in B1. apply B1. rewrite (l_first _ _ _ _ _ _ L), Eps, X. reflexivity. }
    destruct (in_dec Nat.eq_dec d (ptrs n1 ++ g :: l2)) as [Jd|Jd].
    + (* its back link is right *)
      assert (Ld := Pv d Ed Jd). assert (Jd1 : In d (ptrs n1)) by (apply lastor_in in Ld as [Ld|[_ Ld]]; [exact Ld|discriminate]).
      assert (Ndg : d <> g) by (intros ->; apply Ng; apply in_or_app; auto).
      rewrite (proj2 (Nat.eqb_neq g d)) in E1 by congruence. rewrite E in E1. injection E1 as <-.
      destruct (eqO (last s) g) eqn:B2.
      * injection U2 as <-. cbn [withLast withMem mem last fresh first] in *.
        assert (tl = None /\ l2 = []) as [-> H].
        { apply eqO_spec in B2. destruct tl as [t|].
          - exfalso. apply (l_end _ _ _ _ _ _ L g B2). rewrite Eps. apply in_or_app. right. left. reflexivity.
          - split; [reflexivity|]. destruct (l_end _ _ _ _ _ _ L) as [X|X]; [destruct n1; discriminate|]. rewrite X in B2.
            rewrite ptrs_app, lastor_app in B2. cbn [ptrs map fst lastor] in B2. fold (ptrs n2) in B2. unfold l2 in *. cbn [opt] in *. rewrite app_nil_r in *.
            destruct (ptrs n2) as [|q r] eqn:E2; [reflexivity|]. exfalso. cbn [lastor] in B2. apply lastor_in in B2 as [B2|[Y B2]].
            + apply Ng. apply in_or_app. right. right. exact B2.
            + injection B2 as ->. apply Ng. apply in_or_app. right. left. reflexivity. }
        assert (n2 = []) by (unfold l2 in H; cbn [opt] in H; rewrite app_nil_r in H; destruct n2; [reflexivity|discriminate]). subst n2.
        split; [destruct S4 as (?&?&?&?&?&?&?&?); repeat split; assumption|]. split; [exact F4|].
        split.
        { intros p mp0 Ep. cbn [withLen mem]. rewrite M4. destruct (Nat.eqb_spec p g) as [->|X].
          - eexists. split; [reflexivity|]. cbn [address]. destruct (Nat.eqb_spec g d); [congruence|]. rewrite Eb in Ep. injection Ep as <-. reflexivity.
          - destruct (Nat.eqb_spec p d) as [->|Y]; [|eauto]. eexists. split; [reflexivity|]. rewrite Emd in Ep. injection Ep as <-. reflexivity. }
        exists n1, iv, [], (n1 ++ []), None. split; [reflexivity|]. split; [|left; reflexivity].
        unfold Links. cbn [withLen mem fresh first last]. rewrite I4, A4, F4.
        assert (Ef : first s = hdor (ptrs (n1 ++ []) ++ opt None) None).
        { rewrite (l_first _ _ _ _ _ _ L), Eps. rewrite (app_nil_r n1). destruct (ptrs n1); [congruence|reflexivity]. }
        rewrite Ef.
        apply (links_remove (mem s) (fresh s) (first s) (last s) n1 g iv [] None (mem s4) (prev m) None L).
        -- intros p mp0 X. rewrite M4 in X. destruct (Nat.eqb_spec p g) as [->|Y]; [injection X as <-; cbn [prev]; split; [exact Gg|discriminate]|].
           destruct (Nat.eqb_spec p d) as [->|Z]; [|apply G, X]. injection X as <-. cbn [setNext prev]. exact (G _ _ Emd).
        -- exact Gp.
        -- cbn [ptrs map app opt hdor]. intros p mp0 X Ep. rewrite app_nil_r in X. rewrite M4. rewrite (proj2 (Nat.eqb_neq p g)) by (intros ->; apply Ng; apply in_or_app; auto).
           rewrite Ld. cbn [eqO]. rewrite (Nat.eqb_sym d p). destruct (Nat.eqb_spec p d) as [->|Y].
           ++ rewrite Emd in Ep. injection Ep as <-. unfold setNext. rewrite Nx, H. reflexivity.
           ++ rewrite Ep. destruct mp0; reflexivity.
        -- discriminate.
        -- right. rewrite app_nil_r. rewrite Ed, Ld. reflexivity.
      * apply updateO_inv in U2 as [q [Eq U2]]. rewrite Nx in Eq. assert (Jq := Hd q Eq). apply update_inv in U2 as [mq [Emq ->]]. cbn [withMem mem last fresh first] in *.
        assert (Nqg : q <> g) by (intros ->; apply Ng; apply in_or_app; auto).
        assert (Nqd : q <> d).
        { intros ->. apply in_split in Jd1 as [x [y X]]. rewrite X in ND'. rewrite <- app_assoc in ND'. cbn [app] in ND'. apply NoDup_remove_2 in ND'. apply ND'.
          rewrite app_assoc. apply in_or_app. auto. }
        rewrite (proj2 (Nat.eqb_neq q d)) in Emq by exact Nqd.
        split; [destruct S4 as (?&?&?&?&?&?&?&?); repeat split; assumption|]. split; [exact F4|].
        split.
        { intros p mp0 Ep. cbn [withLen mem]. rewrite M4. destruct (Nat.eqb_spec p g) as [->|X].
          - eexists. split; [reflexivity|]. cbn [address]. destruct (Nat.eqb_spec g q); [congruence|]. destruct (Nat.eqb_spec g d); [congruence|]. rewrite Eb in Ep. injection Ep as <-. reflexivity.
          - destruct (Nat.eqb_spec p q) as [->|Y].
            + eexists. split; [reflexivity|]. rewrite Emq in Ep. injection Ep as <-. reflexivity.
            + destruct (Nat.eqb_spec p d) as [->|Y']; [|eauto]. eexists. split; [reflexivity|]. rewrite Emd in Ep. injection Ep as <-. reflexivity. }
        exists n1, iv, n2, (n1 ++ n2), tl. split; [reflexivity|]. split; [|left; reflexivity].
        unfold Links. cbn [withLen mem fresh first last]. rewrite I4, A4, F4.
        assert (Ef : first s = hdor (ptrs (n1 ++ n2) ++ opt tl) None).
        { rewrite (l_first _ _ _ _ _ _ L), Eps. rewrite ptrs_app, <- app_assoc. destruct (ptrs n1); [congruence|reflexivity]. }
        rewrite Ef.
        apply (links_remove (mem s) (fresh s) (first s) (last s) n1 g iv n2 tl (mem s4) (last s) (prev m) L).
        -- intros p mp0 X. rewrite M4 in X. destruct (Nat.eqb_spec p g) as [->|Y]; [injection X as <-; cbn [prev]; split; [exact Gg|discriminate]|].
           destruct (Nat.eqb_spec p q) as [->|Y2]; [injection X as <-; cbn [setPrev prev]; split; [exact (proj1 (G _ _ Emq))|exact Gp]|].
           destruct (Nat.eqb_spec p d) as [->|Z]; [|apply G, X]. injection X as <-. cbn [setNext prev]. exact (G _ _ Emd).
        -- apply (l_last _ _ _ _ _ _ L).
        -- fold l2. intros p mp0 X Ep. rewrite M4. rewrite (proj2 (Nat.eqb_neq p g)) by (intros ->; contradiction).
           rewrite Ld, Eq. cbn [eqO]. rewrite (Nat.eqb_sym d p), (Nat.eqb_sym q p). destruct (Nat.eqb_spec p q) as [->|Y].
           ++ rewrite (proj2 (Nat.eqb_neq q d)) by exact Nqd. rewrite Emq in Ep. injection Ep as <-. reflexivity.
           ++ destruct (Nat.eqb_spec p d) as [->|Z].
              ** rewrite Emd in Ep. injection Ep as <-. unfold setNext. rewrite Nx, Eq. reflexivity.
              ** rewrite Ep. destruct mp0; reflexivity.
        -- intros d' X Y. apply Pv; [exact X|]. apply in_app_or in Y as [Y|Y]; apply in_or_app; [auto|right; right; exact Y].
        -- pose proof (l_end _ _ _ _ _ _ L) as Q. destruct tl as [t|].
           ++ intros x X Y. apply (Q x X). rewrite Eps. apply in_app_or in Y as [Y|Y]; apply in_or_app; [auto|right; right; exact Y].
           ++ destruct Q as [Q|Q]; [destruct n1; discriminate|]. right. rewrite Q. rewrite !ptrs_app, !lastor_app. cbn [ptrs map fst lastor]. fold (ptrs n2).
              unfold l2 in Jq. cbn [opt] in Jq. rewrite app_nil_r in Jq. destruct (ptrs n2); [destruct Jq|]. reflexivity.
    + (* its back link leads outside: the list is cut behind it *)
      assert (Ndg : d <> g) by (intros ->; apply Jd; apply in_or_app; right; left; reflexivity).
      rewrite (proj2 (Nat.eqb_neq g d)) in E1 by congruence. rewrite E in E1. injection E1 as <-.
      assert (Nd1 : forall p, In p (ptrs n1) -> p <> d) by (intros p X ->; apply Jd; apply in_or_app; auto).
      destruct (eqO (last s) g) eqn:B2.
      * injection U2 as <-. cbn [withLast withMem mem last fresh first] in *.
        split; [destruct S4 as (?&?&?&?&?&?&?&?); repeat split; assumption|]. split; [exact F4|].
        split.
        { intros p mp0 Ep. cbn [withLen mem]. rewrite M4. destruct (Nat.eqb_spec p g) as [->|X].
          - eexists. split; [reflexivity|]. cbn [address]. destruct (Nat.eqb_spec g d); [congruence|]. rewrite Eb in Ep. injection Ep as <-. reflexivity.
          - destruct (Nat.eqb_spec p d) as [->|Y]; [|eauto]. eexists. split; [reflexivity|]. rewrite Emd in Ep. injection Ep as <-. reflexivity. }
        exists n1, iv, n2, n1, (Some g). split; [reflexivity|]. split; [|right; reflexivity].
        unfold Links. cbn [withLen mem fresh first last]. rewrite I4, A4, F4.
        eapply links_cut; [exact L| | |rewrite M4, Nat.eqb_refl; reflexivity|reflexivity|reflexivity| |].
        -- intros p mp0 X. rewrite M4 in X. destruct (Nat.eqb_spec p g) as [->|Y]; [injection X as <-; cbn [prev]; split; [exact Gg|discriminate]|].
           destruct (Nat.eqb_spec p d) as [->|Z]; [|apply G, X]. injection X as <-. cbn [setNext prev]. exact (G _ _ Emd).
        -- exact Gp.
        -- intros p X. rewrite M4. rewrite (proj2 (Nat.eqb_neq p g)) by (intros ->; apply Ng; apply in_or_app; auto). rewrite (proj2 (Nat.eqb_neq p d)) by (apply Nd1, X). reflexivity.
        -- intros x X Y. rewrite Ed in X. injection X as <-. apply Jd. apply in_app_or in Y as [Y|[Y|[]]]; apply in_or_app; [auto|right; left; exact Y].
      * apply updateO_inv in U2 as [q [Eq U2]]. rewrite Nx in Eq. assert (Jq := Hd q Eq). apply update_inv in U2 as [mq [Emq ->]]. cbn [withMem mem last fresh first] in *.
        assert (Nqg : q <> g) by (intros ->; apply Ng; apply in_or_app; auto).
        assert (Nqd : q <> d) by (intros ->; apply Jd; apply in_or_app; right; right; exact Jq).
        rewrite (proj2 (Nat.eqb_neq q d)) in Emq by exact Nqd.
        split; [destruct S4 as (?&?&?&?&?&?&?&?); repeat split; assumption|]. split; [exact F4|].
        split.
        { intros p mp0 Ep. cbn [withLen mem]. rewrite M4. destruct (Nat.eqb_spec p g) as [->|X].
          - eexists. split; [reflexivity|]. cbn [address]. destruct (Nat.eqb_spec g q); [congruence|]. destruct (Nat.eqb_spec g d); [congruence|]. rewrite Eb in Ep. injection Ep as <-. reflexivity.
          - destruct (Nat.eqb_spec p q) as [->|Y].
            + eexists. split; [reflexivity|]. rewrite Emq in Ep. injection Ep as <-. reflexivity.
            + destruct (Nat.eqb_spec p d) as [->|Y']; [|eauto]. eexists. split; [reflexivity|]. rewrite Emd in Ep. injection Ep as <-. reflexivity. }
        exists n1, iv, n2, n1, (Some g). split; [reflexivity|]. split; [|right; reflexivity].
        unfold Links. cbn [withLen mem fresh first last]. rewrite I4, A4, F4.
        assert (Sep : forall p, In p (ptrs n1) -> In p l2 -> False).
        { intros p X1 X2. apply in_split in X1 as [x [y X]]. rewrite X in ND'. rewrite <- app_assoc in ND'. cbn [app] in ND'. apply NoDup_remove_2 in ND'. apply ND'.
          rewrite app_assoc. apply in_or_app. auto. }
        eapply links_cut; [exact L| | |rewrite M4, Nat.eqb_refl; reflexivity|reflexivity|reflexivity| |].
        -- intros p mp0 X. rewrite M4 in X. destruct (Nat.eqb_spec p g) as [->|Y]; [injection X as <-; cbn [prev]; split; [exact Gg|discriminate]|].
           destruct (Nat.eqb_spec p q) as [->|Y2]; [injection X as <-; cbn [setPrev prev]; split; [exact (proj1 (G _ _ Emq))|exact Gp]|].
           destruct (Nat.eqb_spec p d) as [->|Z]; [|apply G, X]. injection X as <-. cbn [setNext prev]. exact (G _ _ Emd).
        -- apply (l_last _ _ _ _ _ _ L).
        -- intros p X. rewrite M4. rewrite (proj2 (Nat.eqb_neq p g)) by (intros ->; apply Ng; apply in_or_app; auto).
           rewrite (proj2 (Nat.eqb_neq p q)) by (intros ->; eapply Sep; eauto). rewrite (proj2 (Nat.eqb_neq p d)) by (apply Nd1, X). reflexivity.
        -- intros x X Y. pose proof (l_end _ _ _ _ _ _ L) as Q. destruct tl as [t|].
           ++ apply (Q x X). rewrite Eps. apply in_app_or in Y as [Y|[Y|[]]]; apply in_or_app; [auto|right; left; exact Y].
           ++ destruct Q as [Q|Q]; [destruct n1; discriminate|]. rewrite Q in X. rewrite ptrs_app, lastor_app in X. cbn [ptrs map fst lastor] in X. fold (ptrs n2) in X.
              assert (Jq' := Jq). unfold l2 in Jq'. cbn [opt] in Jq'. rewrite app_nil_r in Jq'.
              apply lastor_in in X as [X|[X _]]; [|rewrite X in Jq'; destruct Jq'].
              assert (X' : In x l2) by (unfold l2; apply in_or_app; auto).
              apply in_app_or in Y as [Y|[Y|[]]]; [eapply Sep; eauto|]. subst x. apply Ng. apply in_or_app. auto.
Qed.

(** ** Splitting a block off *)
Lemma links_resize s n1 g a z0 n2 tl z s' : Links s (n1 ++ (g, (a, z0)) :: n2) tl -> update s g (setSize z) = Some s' ->
  Links s' (n1 ++ (g, (a, z)) :: n2) tl /\ same s s' /\ fresh s' = fresh s /\ first s' = first s /\ last s' = last s /\
  exists m, mem s' g = Some m /\ address m = a /\ size m = z.
Proof.
  intros L U. apply update_inv in U as [b [E ->]].
  assert (Eq : ptrs (n1 ++ (g, (a, z)) :: n2) = ptrs (n1 ++ (g, (a, z0)) :: n2)) by (rewrite !ptrs_app; reflexivity).
  assert (V := l_vals _ _ _ _ _ _ L). unfold vals in V. rewrite Forall_forall in V.
  assert (Vg : address b = a).
  { destruct (V (g, (a, z0))) as [m [X [Y _]]]; [apply in_or_app; right; left; reflexivity|]. cbn [fst snd] in *. rewrite E in X. injection X as <-. exact Y. }
  split; [|repeat split; cbn [withMem mem]; rewrite Nat.eqb_refl; exists (setSize z b); cbn [setSize address size]; repeat split; exact Vg].
  pose proof (l_nodup _ _ _ _ _ _ L) as ND.
  unfold Links. cbn [withMem mem fresh first last].
  destruct L as [A B C D F G H I0]. rewrite <- Eq in *. split; auto.
  - intros p m. destruct (Nat.eqb_spec p g) as [->|X]; [|apply A]. intro X. injection X as <-. cbn [setSize prev]. apply (A _ _ E).
  - eapply cseg_ext; [|exact D]. intros p J. destruct (Nat.eqb_spec p g) as [->|X]; [rewrite E; reflexivity|reflexivity].
  - eapply pseg_ext; [| |exact F]; [|auto]. intros p J. destruct (Nat.eqb_spec p g) as [->|X]; [rewrite E; reflexivity|reflexivity].
  - destruct tl; [exact H|]. destruct H as [H|H]; [destruct n1; discriminate|]. right. exact H.
  - unfold vals. rewrite Forall_forall. intros n J. destruct n as [p [a' z']]. cbn [fst snd].
    destruct (Nat.eqb_spec p g) as [->|X].
    + exists (setSize z b). split; [reflexivity|]. cbn [setSize address size].
      assert (X : (a', z') = (a, z)).
      { rewrite ptrs_app in ND. cbn [ptrs map fst] in ND. rewrite <- app_assoc in ND. cbn [app] in ND. apply NoDup_remove_2 in ND.
        apply in_app_or in J as [J|[J|J]]; [exfalso|congruence|exfalso]; apply ND.
        - apply in_or_app. left. apply (in_map fst) in J. exact J.
        - apply in_or_app. right. apply in_or_app. left. apply (in_map fst) in J. exact J. }
      injection X as -> ->. auto.
    + apply (V (p, (a', z'))). apply in_app_or in J as [J|[J|J]]; apply in_or_app; [auto|congruence|right; right; exact J].
Qed.

Lemma ok_split bs tot l1 a z0 l2 us z : okIv bs tot (l1 ++ (a, z0) :: l2) us -> 0 < z < z0 -> (bs <= z0 - z -> (a + z) mod bs = 0) ->
  okIv bs tot ((a + z, z0 - z) :: l1 ++ (a, z) :: l2) us.
Proof.
  intros O Hz Ha. assert (P : Permutation (l1 ++ (a, z0) :: l2) ((a, z0) :: l1 ++ l2)) by (symmetry; apply Permutation_middle).
  apply (ok_perm _ _ _ _ _ P) in O. apply (ok_perm _ _ ((a + z, z0 - z) :: (a, z) :: l1 ++ l2)).
  { apply perm_skip. apply Permutation_middle. }
  destruct O as [A B C D]. cbn [app pairwise] in *. destruct A as [A1 A2]. inversion B as [|? ? B1 B2]; subst. inversion C as [|? ? C1 C2]; subst.
  unfold inside in B1. cbn [fst snd] in *. split; auto.
  - cbn [app pairwise]. split; [|split; [|exact A2]].
    + constructor; [right; cbn [fst snd]; lia|]. eapply Forall_impl; [|exact A1]. intros [a' z']. unfold disjoint. cbn [fst snd]. lia.
    + eapply Forall_impl; [|exact A1]. intros [a' z']. unfold disjoint. cbn [fst snd]. lia.
  - cbn [app]. constructor; [unfold inside; cbn [fst snd]; lia|]. constructor; [unfold inside; cbn [fst snd]; lia|]. exact B2.
  - constructor; [cbn [fst snd]; exact Ha|]. constructor; [cbn [fst snd]; intro X; apply C1; lia|]. exact C2.
Qed.

Lemma newBlock_new s ns tl a z : Links s ns tl -> 0 < z -> Forall (fun x => 0 < snd x) (ivs ns) -> Forall (disjoint (a, z)) (ivs ns) ->
  newBlock (fst (newMemblock s a z)) ns tl (snd (newMemblock s a z)) a z.
Proof.
  intros L Hz P D. cbn [newMemblock fst snd]. assert (B := links_bound _ _ _ _ _ _ L). split; auto; cbn [mem fresh last].
  - rewrite Nat.eqb_refl. reflexivity.
  - intro J. apply B in J. lia.
  - intros p m J E X. assert (J' := B p J). rewrite (proj2 (Nat.eqb_neq p (fresh s))) in E by lia. apply (l_mem _ _ _ _ _ _ L) in E as [_ E]. apply E in X. lia.
  - intro X. apply (l_last _ _ _ _ _ _ L) in X. lia.
Qed.

Lemma ok_pos bs tot iv us : okIv bs tot iv us -> Forall (fun x => 0 < snd x) iv.
Proof. intro O. pose proof (ok_in O) as B. apply Forall_app in B as [B _]. eapply Forall_impl; [|exact B]. unfold inside. tauto. Qed.

Lemma inserted_keep ns tl k iv ns' n1 x n2 : inserted ns tl k iv ns' -> ns = n1 ++ x :: n2 ->
  (exists n1' n2', ns' = n1' ++ x :: n2') /\ exists ex, Permutation (iv :: ivs ns) (ivs ns' ++ ex).
Proof.
  intros [[-> _]|[a [b [E ->]]]] F.
  - split; [eauto|]. exists [iv]. apply Permutation_cons_append.
  - split.
    + rewrite E in F. assert (J : In x (a ++ b)) by (rewrite F; apply in_or_app; right; left; reflexivity).
      apply in_split. apply in_app_or in J as [J|J]; apply in_or_app; [auto|right; right; exact J].
    + exists []. rewrite app_nil_r, E, !ivs_app. cbn [ivs map snd]. apply Permutation_middle.
Qed.

Lemma splitIf_links s n1 g a z0 n2 tl z s' bs tot us :
  Links s (n1 ++ (g, (a, z0)) :: n2) tl -> okIv bs tot (ivs (n1 ++ (g, (a, z0)) :: n2)) us -> 0 < z ->
  (z < z0 -> bs <= z0 - z -> (a + z) mod bs = 0) -> splitIf s g z = Some s' ->
  same s s' /\ exists n1' n2', Links s' (n1' ++ (g, (a, Z.min z z0)) :: n2') tl /\
    okIv bs tot (ivs (n1' ++ (g, (a, Z.min z z0)) :: n2')) us.
Proof.
  intros L O Hz Ha R. unfold splitIf in R. apply bind_inv in R as [m [E R]]. unfold deref in E.
  assert (Vm : address m = a /\ size m = z0).
  { pose proof (l_vals _ _ _ _ _ _ L) as V. unfold vals in V. rewrite Forall_forall in V. destruct (V (g, (a, z0))) as [m' [X [Y Z]]]; [apply in_or_app; right; left; reflexivity|].
    cbn [fst snd] in *. rewrite E in X. injection X as <-. auto. }
  destruct Vm as [Va Vz]. destruct (Z.ltb_spec z (size m)) as [Lt|Ge].
  2:{ injection R as <-. split; [apply same_refl|]. rewrite Z.min_r by lia. eauto. }
  apply bind_inv in R as [[s2 k] [Sp R]]. cbn [fst snd] in R. unfold split in Sp. unfold deref in Sp. rewrite E in Sp. cbn [bind] in Sp.
  destruct (Z.leb_spec (size m) z); [lia|]. apply bind_inv in Sp as [s1 [U Sp]].
  destruct (links_resize _ _ _ _ _ _ _ _ _ L U) as [L1 [S1 [F1 _]]]. rewrite Z.min_l by lia.
  rewrite ivs_app in O. cbn [ivs map snd] in O. fold (ivs n2) in O.
  assert (O' := ok_split _ _ _ _ _ _ _ z O ltac:(lia) ltac:(intro X; apply Ha; lia)).
  assert (Eiv : ivs n1 ++ (a, z) :: ivs n2 = ivs (n1 ++ (g, (a, z)) :: n2)) by (rewrite ivs_app; reflexivity).
  rewrite Eiv in O'.
  assert (Pn : Forall (fun x => 0 < snd x) (ivs (n1 ++ (g, (a, z)) :: n2))) by (apply ok_pos in O'; inversion O'; assumption).
  assert (Dn : Forall (disjoint (a + z, z0 - z)) (ivs (n1 ++ (g, (a, z)) :: n2))).
  { pose proof (ok_pw O') as W. cbn [app pairwise] in W. destruct W as [W _]. apply Forall_app in W as [W _]. exact W. }
  rewrite Va, Vz in Sp. assert (Sp' : s2 = fst (newMemblock s1 (a + z) (z0 - z)) /\ k = snd (newMemblock s1 (a + z) (z0 - z))) by (injection Sp as <- <-; auto).
  destruct Sp' as [-> ->].
  destruct (insert_links _ _ _ _ _ _ _ (links_new _ _ _ (a + z) (z0 - z) L1) (newBlock_new _ _ _ (a + z) (z0 - z) L1 ltac:(lia) Pn Dn) R) as [S2 [_ [ns' [L2 Ins]]]].
  split; [eapply same_trans; [exact S1|]; eapply same_trans; [|exact S2]; repeat split|].
  destruct (inserted_keep _ _ _ _ _ _ _ _ Ins eq_refl) as [[n1' [n2' Ek]] [ex Pe]]. exists n1', n2'. subst ns'. split; [exact L2|].
  eapply ok_sub; [exact Pe|exact O'].
Qed.

Lemma insertLoop_fresh k : forall fuel s b s', insertLoop fuel s b k = Some s' -> first s' = first s /\ fresh s' = fresh s.
Proof.
  assert (Q : forall s0 p f s1, update s0 p f = Some s1 -> first s1 = first s0 /\ fresh s1 = fresh s0) by (intros s0 p f s1 U; apply update_inv in U as [? [_ ->]]; auto).
  induction fuel as [|fuel IH]; intros s0 b s1 R; [discriminate|]. destruct b as [pb|]; [|discriminate]. cbn [insertLoop] in R.
  apply bind_inv in R as [mb [Eb R]]. apply bind_inv in R as [mk [Ek R]]. cbv zeta in R. set (ov := overlaps (Nat.eqb pb k) mb mk) in R.
  destruct ((address mb <? address mk) && ov); [destruct (cap mk <=? cap mb); [injection R as <-; auto|]; apply Q in R; exact R|].
  destruct ((address mb <? address mk) && negb ov).
  { apply bind_inv in R as [mn [En R]]. unfold derefO in En. apply bind_inv in En as [pn [Enx En]].
    destruct (cap mk <=? address mn); [|eapply IH; eauto]. rewrite Enx in R.
    apply bind_inv in R as [s2 [U1 R]]. apply bind_inv in R as [s3 [U2 R]]. apply bind_inv in R as [s4 [U3 R]]. apply bind_inv in R as [s5 [U4 R]].
    injection R as <-. cbn [updateO bind] in U4. cbn [withLen first fresh]. apply Q in U1, U2, U3, U4. intuition congruence. }
  destruct (address mb =? address mk); [destruct (size mk <? size mb); [injection R as <-; auto|]; apply Q in R; exact R|].
  destruct ((address mk <? address mb) && ov); [|discriminate].
  destruct (cap mb <=? cap mk); apply bind_inv in R as [s2 [U1 R]]; apply Q in U1, R; intuition congruence.
Qed.
Lemma insert_first s k s' : insert s k = Some s' -> first s' <> None /\ fresh s' = fresh s.
Proof.
  intro R. unfold insert in R. destruct (first s) as [pf|] eqn:Ef; [|injection R as <-; split; [discriminate|reflexivity]].
  assert (Q : forall s0 p f s1, update s0 p f = Some s1 -> first s1 = first s0 /\ fresh s1 = fresh s0) by (intros s0 p f s1 U; apply update_inv in U as [? [_ ->]]; auto).
  apply bind_inv in R as [mk [Ek R]]. apply bind_inv in R as [ml [El R]]. unfold derefO in El. apply bind_inv in El as [pl [Epl El]].
  apply bind_inv in R as [mf [Emf R]]. rewrite Epl in R. cbn [updateO bind] in R.
  destruct (address ml <=? address mk).
  { destruct (overlaps (eqO (Some pl) k) mk ml).
    - destruct (cap mk <? cap ml); [injection R as <-; split; congruence|]. apply Q in R. intuition congruence.
    - apply bind_inv in R as [s1 [U1 R]]. apply bind_inv in R as [s2 [U2 R]]. apply bind_inv in R as [s3 [U3 R]]. injection R as <-.
      cbn [withLen withLast first fresh]. apply Q in U1, U2, U3. intuition congruence. }
  destruct (address mk <? address mf).
  { destruct (overlaps (Nat.eqb k pf) mk mf).
    - destruct (cap mf <? cap mk); [injection R as <-; split; congruence|]. apply Q in R. intuition congruence.
    - apply bind_inv in R as [s1 [U1 R]]. apply bind_inv in R as [s2 [U2 R]]. injection R as <-. split; [discriminate|].
      cbn [withLen withFirst fresh]. apply Q in U1, U2. intuition congruence. }
  apply insertLoop_fresh in R as [R1 R2]. split; congruence.
Qed.

Lemma splitIf_end s t z s' : splitIf s t z = Some s' -> endT s t -> first s <> None -> (t < fresh s)%nat ->
  endT s' t /\ first s' <> None /\ (t < fresh s')%nat.
Proof.
  intros R T F Lt. unfold splitIf in R. apply bind_inv in R as [m [E R]]. destruct (z <? size m); [|injection R as <-; auto].
  apply bind_inv in R as [[s2 k] [Sp R]]. cbn [fst snd] in R. unfold split in Sp. rewrite E in Sp. cbn [bind] in Sp. destruct (size m <=? z); [discriminate|]. apply bind_inv in Sp as [s1 [U Sp]].
  destruct (update_end _ _ _ _ _ U T) as [T1 _]; [right; reflexivity|].
  assert (F1 : first s1 = first s /\ fresh s1 = fresh s) by (apply update_inv in U as [? [_ ->]]; auto). destruct F1 as [F1 F2].
  injection Sp as <- <-. destruct (insert_first _ _ _ R) as [I1 I2]. split; [|split; [exact I1|rewrite I2; cbn [fresh]; lia]].
  eapply insert_end; [exact R| |cbn [first]; congruence|lia].
  destruct T1 as [T1 [m1 [E1 N1]]]. split; [exact T1|]. cbn [mem]. rewrite (proj2 (Nat.eqb_neq t (fresh s1))) by lia. eauto.
Qed.

Lemma ok_take bs tot l1 a z l2 us : okIv bs tot (l1 ++ (a, z) :: l2) us -> a mod bs = 0 -> okIv bs tot (l1 ++ l2) ((a, z) :: us).
Proof.
  intros O Ha. apply (ok_perm _ _ _ ((a, z) :: l1 ++ l2)) in O; [|symmetry; apply Permutation_middle]. destruct O as [A B C D].
  split; [| |inversion C; assumption|constructor; [exact Ha|exact D]].
  - eapply pairwise_perm; [|exact A]. apply Permutation_middle.
  - eapply Permutation_Forall; [|exact B]. apply Permutation_middle.
Qed.

Lemma usedDel_none us a z : 0 < z -> Forall (disjoint (a, z)) us -> Forall (fun x => 0 < snd x) us -> usedDel us a = us.
Proof.
  intros Hz D P. induction us as [|[k v] us IH]; [reflexivity|]. inversion D as [|? ? D1 D2]; subst. inversion P as [|? ? P1 P2]; subst.
  unfold usedDel in *. cbn [filter fst]. unfold disjoint in D1. cbn [fst snd] in *. destruct (Z.eqb_spec k a); [lia|]. cbn [negb]. f_equal. apply IH; assumption.
Qed.

Lemma align_ok s z : 0 < blockSize s -> 0 < z ->
  align s z mod blockSize s = 0 /\ z <= align s z < z + blockSize s /\ blockSize s <= align s z.
Proof.
  intros Hb Hz. unfold align. rewrite Z.rem_mod_nonneg by lia. set (b := blockSize s) in *.
  assert (D := Z.div_mod z b ltac:(lia)). assert (M := Z.mod_pos_bound z b Hb). set (q := z / b) in *. set (r := z mod b) in *.
  destruct (Z.eqb_spec r 0) as [E|E].
  - split; [exact E|]. split; [lia|]. assert (Ez : z = b * q) by lia. clearbody q. assert (0 < q) by nia. nia.
  - assert (Ez : z - r + b = (q + 1) * b) by lia. assert (0 <= q) by (clearbody q r; nia). rewrite Ez.
    split; [apply Z_mod_mult|]. split; [lia|nia].
Qed.

Lemma bestFitLoop_in : forall fuel s ns tl b z g, Links s ns tl -> (forall p, b = Some p -> In p (ptrs ns ++ opt tl)) ->
  bestFitLoop fuel s b z = Some (Some g) -> In g (ptrs ns ++ opt tl) /\ exists m, mem s g = Some m /\ z <= size m.
Proof.
  induction fuel as [|fuel IH]; intros s ns tl b z g L Hb R; [discriminate|]. destruct b as [p|]; [|discriminate]. cbn [bestFitLoop] in R.
  apply bind_inv in R as [m [E R]]. unfold deref in E. specialize (Hb p eq_refl). destruct (Z.leb_spec z (size m)).
  - injection R as <-. eauto.
  - eapply IH; [exact L| |exact R]. intros q N. destruct (next_in _ _ _ _ _ _ L Hb E N) as [n1 [iv [n2 [l [X Y]]]]]. subst ns.
    rewrite ptrs_app. cbn [ptrs map fst]. fold (ptrs n2). rewrite <- app_assoc. cbn [app]. rewrite Y. apply in_or_app. right. right. left. reflexivity.
Qed.
Lemma first_in s ns tl p : Links s ns tl -> first s = Some p -> In p (ptrs ns ++ opt tl).
Proof. intros L E. rewrite (l_first _ _ _ _ _ _ L) in E. destruct (ptrs ns ++ opt tl); [discriminate|]. injection E as ->. left. reflexivity. Qed.

Definition Inv (s : bfc) : Prop := exists ns tl, Links s ns tl /\ okIv (blockSize s) (reserved s) (ivs ns) (used s).

Lemma take_ok s ns tl g al z s' r : Links s ns tl -> okIv (blockSize s) (reserved s) (ivs ns) (used s) -> 0 < blockSize s -> 0 < z -> al = align s z ->
  In g (ptrs ns ++ opt tl) -> (exists m, mem s g = Some m /\ al <= size m) -> take s g al z = Some (s', r) ->
  exists a, r = Address (a + start s) /\ Inv s' /\ used s' = (a, z) :: used s /\
    start s' = start s /\ blockSize s' = blockSize s /\ reserved s' = reserved s /\ allocated s' = allocated s + z.
Proof.
  intros L O Hb Hz Hal J [m [E Hm]] R. destruct (align_ok s z Hb Hz) as [A1 [A2 A3]]. rewrite <- Hal in *.
  unfold take in R. apply bind_inv in R as [s3 [SR R]]. apply bind_inv in R as [m3 [E3 R]]. injection R as <- <-. unfold deref in E3.
  unfold splitOrRemove in SR. apply bind_inv in SR as [s1 [P1 SR]]. apply bind_inv in SR as [s2 [P2 SR]].
  apply in_ptrs_opt in J as [J|J].
  2:{ exfalso. subst tl. assert (Jg : In g (ptrs ns ++ opt (Some g))) by (apply in_or_app; right; left; reflexivity).
      assert (T : endT s g) by (split; [intro X; exact (l_end _ _ _ _ _ _ L _ X Jg)|exists m; split; [exact E|eapply next_nil_tail; eauto]]).
      assert (F : first s <> None) by (rewrite (l_first _ _ _ _ _ _ L); destruct (ptrs ns); discriminate).
      assert (Lt := links_bound _ _ _ _ _ _ L _ Jg).
      destruct (splitIf_end _ _ _ _ P1 T F Lt) as [T1 [F1 Lt1]]. destruct (splitIf_end _ _ _ _ P2 T1 F1 Lt1) as [T2 _].
      rewrite (remove_end _ _ T2) in SR. discriminate. }
  destruct (vals_in _ _ _ (l_vals _ _ _ _ _ _ L) J) as [m' [E' J']]. rewrite E in E'. injection E' as <-.
  apply in_split in J' as [n1 [n2 En]]. subst ns. set (a := address m) in *. set (z0 := size m) in *.
  assert (Al : a mod blockSize s = 0).
  { pose proof (ok_al O) as W. rewrite Forall_forall in W. apply (W (a, z0)); [|cbn [snd]; lia]. rewrite ivs_app. apply in_or_app. right. left. reflexivity. }
  destruct (splitIf_links _ _ _ _ _ _ _ al _ _ _ _ L O ltac:(lia) ltac:(intros _ _; rewrite Zplus_mod, Al, A1; reflexivity) P1) as [S1 [m1 [m2 [L1 O1]]]].
  rewrite Z.min_l in L1, O1 by lia.
  destruct (splitIf_links _ _ _ _ _ _ _ z _ _ _ _ L1 O1 Hz ltac:(intros; lia) P2) as [S2 [k1 [k2 [L2 O2]]]]. rewrite Z.min_l in L2, O2 by lia.
  assert (Jg : In g (ptrs (k1 ++ (g, (a, z)) :: k2) ++ opt tl)).
  { apply in_or_app. left. rewrite ptrs_app. apply in_or_app. right. left. reflexivity. }
  destruct (remove_links _ _ _ _ _ L2 Jg SR) as [S3 [_ [Ad [c1 [iv [c2 [ns' [tl' [Ec [L3 Sub]]]]]]]]]].
  assert (X : c1 = k1 /\ iv = (a, z) /\ c2 = k2).
  { pose proof (l_nodup _ _ _ _ _ _ L2) as ND. apply NoDup_appl in ND. rewrite ptrs_app in ND. cbn [ptrs map fst] in ND. fold (ptrs k2) in ND.
    clear - Ec ND. revert c1 Ec ND. induction k1 as [|x k1 IH]; intros c1 Ec ND.
    - destruct c1 as [|y c1]; cbn [app] in Ec; [injection Ec as -> ->; auto|]. injection Ec as <- Ec. exfalso. cbn in ND. inversion ND; subst.
      apply H1. rewrite ptrs_app. apply in_or_app. right. left. reflexivity.
    - destruct c1 as [|y c1]; cbn [app] in Ec.
      + injection Ec as -> Ec. exfalso. cbn in ND. inversion ND; subst. apply H1. apply in_or_app. right. left. reflexivity.
      + injection Ec as -> Ec. cbn in ND. inversion ND; subst. destruct (IH c1 Ec H2) as [-> [-> ->]]. auto. }
  destruct X as [-> [-> ->]].
  assert (Eg : address m3 = a).
  { pose proof (l_vals _ _ _ _ _ _ L2) as V. unfold vals in V. rewrite Forall_forall in V. destruct (V (g, (a, z))) as [mm [X [Y _]]]; [apply in_or_app; right; left; reflexivity|].
    cbn [fst snd] in *. destruct (Ad _ _ X) as [mm' [X' Y']]. rewrite E3 in X'. injection X' as <-. congruence. }
  destruct (same_trans _ _ _ S1 (same_trans _ _ _ S2 S3)) as (Q1&Q2&Q3&Q4&Q5&Q6&Q7&Q8).
  rewrite ivs_app in O2. cbn [ivs map snd] in O2. fold (ivs k2) in O2. apply ok_take in O2; [|exact Al]. rewrite <- ivs_app in O2.
  assert (Ud : usedDel (used s) a = used s).
  { apply (usedDel_none _ _ z); [exact Hz| |].
    - pose proof (ok_pw O2) as W. apply pairwise_app in W as [_ [[W _] _]]. exact W.
    - pose proof (ok_in O2) as W. apply Forall_app in W as [_ W]. inversion W; subst. eapply Forall_impl; [|eassumption]. unfold inside. tauto. }
  exists a. cbn [start used blockSize reserved allocated]. rewrite Eg, Q1, Q3, Q4, Q5, Q6. unfold usedSet. rewrite Ud.
  repeat split; try reflexivity. exists ns', tl'. split; [exact L3|]. cbn [blockSize reserved used].
  destruct Sub as [->| ->]; [exact O2|]. eapply ok_sub; [|exact O2]. rewrite ivs_app. reflexivity.
Qed.

(** ** Coalescing *)
Lemma ptr_merge st st' l1 p q l3 mp mp' :
  NoDup (l1 ++ p :: q :: l3) -> cseg st (l1 ++ p :: q :: l3) None -> pseg st (l1 ++ p :: q :: l3) None (l1 ++ p :: q :: l3) ->
  st p = Some mp -> st' p = Some mp' -> next mp' = hdor l3 None -> prev mp' = prev mp ->
  (forall r, In r (l1 ++ l3) -> st' r = st r) ->
  NoDup (l1 ++ p :: l3) /\ cseg st' (l1 ++ p :: l3) None /\ pseg st' (l1 ++ p :: l3) None (l1 ++ p :: l3).
Proof.
  intros ND C P Ep Ep' N V H.
  assert (ND2 : NoDup (l1 ++ p :: l3)).
  { change (l1 ++ p :: q :: l3) with (l1 ++ [p] ++ q :: l3) in ND. rewrite app_assoc in ND. apply NoDup_remove_1 in ND. rewrite <- app_assoc in ND. exact ND. }
  assert (Nq : ~ In q (l1 ++ p :: l3)).
  { change (l1 ++ p :: q :: l3) with (l1 ++ [p] ++ q :: l3) in ND. rewrite app_assoc in ND. apply NoDup_remove_2 in ND. rewrite <- app_assoc in ND. exact ND. }
  split; [exact ND2|]. apply cseg_app in C as [C1 [_ [_ C3]]].
  assert (W : forall d, In d (l1 ++ p :: l3) -> In d (l1 ++ p :: q :: l3)).
  { intros d J. apply in_app_or in J as [J|[J|J]]; apply in_or_app; [auto|right; left; exact J|right; right; right; exact J]. }
  split.
  - apply cseg_app. split.
    + eapply cseg_ext; [|exact C1]. intros r J. rewrite H by (apply in_or_app; auto). reflexivity.
    + cbn [cseg]. split; [exists mp'; auto|]. eapply cseg_ext; [|exact C3]. intros r J. rewrite H by (apply in_or_app; auto). reflexivity.
  - apply pseg_app in P as [P1 [P2 [P3 P4]]]. apply pseg_app. split.
    + eapply pseg_ext; [| |exact P1]; [intros r J; rewrite H by (apply in_or_app; auto); reflexivity|]. intros r m d J E D. apply W.
    + cbn [pseg]. split.
      * intros m d E D J. rewrite Ep' in E. injection E as <-. apply (P2 mp d Ep); [congruence|apply W, J].
      * destruct l3 as [|x l3]; [exact I|]. cbn [pseg] in P4 |- *. destruct P4 as [P4 P5]. split.
        -- intros m d E D J. rewrite H in E by (apply in_or_app; right; left; reflexivity). assert (X := P4 m d E D (W d J)). injection X as <-. contradiction.
        -- eapply pseg_ext; [| |exact P5]; [intros r J; rewrite H by (apply in_or_app; right; right; exact J); reflexivity|]. intros r m d J E D. apply W.
Qed.

Lemma ok_merge bs tot l1 a z z' l2 us : okIv bs tot (l1 ++ (a, z) :: (a + z, z') :: l2) us -> a mod bs = 0 -> okIv bs tot (l1 ++ (a, z + z') :: l2) us.
Proof.
  intros O Ha. apply (ok_perm _ _ _ ((a, z) :: (a + z, z') :: l1 ++ l2)) in O.
  2:{ symmetry. eapply perm_trans; [apply perm_skip, Permutation_middle|]. apply Permutation_middle. }
  apply (ok_perm _ _ ((a, z + z') :: l1 ++ l2)); [apply Permutation_middle|]. destruct O as [A B C D]. cbn [app pairwise] in *.
  destruct A as [A1 [A2 A3]]. inversion A1 as [|? ? _ A4]; subst. inversion B as [|? ? B1 B2]; subst. inversion B2 as [|? ? B3 B4]; subst.
  inversion C as [|? ? _ C1]; subst. inversion C1 as [|? ? _ C2]; subst. unfold inside in B1, B3. cbn [fst snd] in *. split; auto.
  - cbn [app pairwise]. split; [|exact A3]. rewrite Forall_forall in *. intros [x y] J. specialize (A2 _ J). specialize (A4 _ J).
    assert (B5 := B4 (x, y) J). unfold inside in B5. unfold disjoint in *. cbn [fst snd] in *. lia.
  - cbn [app]. constructor; [unfold inside; cbn [fst snd]; lia|exact B4].
Qed.

Lemma coalesceInner_ok : forall fuel s ns tl p s' bs tot us,
  Links s ns tl -> okIv bs tot (ivs ns) us -> In p (ptrs ns ++ opt tl) ->
  (forall m, mem s p = Some m -> address m mod bs = 0) -> coalesceInner fuel s p = Some s' ->
  same s s' /\ exists ns' tl', Links s' ns' tl' /\ okIv bs tot (ivs ns') us /\ In p (ptrs ns' ++ opt tl').
Proof.
  induction fuel as [|fuel IH]; intros s ns tl p s' bs tot us L O J Al R; [discriminate|]. cbn [coalesceInner] in R.
  apply bind_inv in R as [mb [Eb R]]. unfold deref in Eb. destruct (next mb) as [q|] eqn:N.
  2:{ injection R as <-. split; [apply same_refl|]. eauto. }
  apply bind_inv in R as [mn [En R]]. unfold deref in En. destruct (Z.eqb_spec (cap mb) (address mn)) as [Ec|_].
  2:{ destruct (overlaps (Nat.eqb p q) mb mn); [discriminate|]. injection R as <-. split; [apply same_refl|]. eauto. }
  destruct (next_in _ _ _ _ _ _ L J Eb N) as [n1 [iv [n2 [l3 [Ens El]]]]]. subst ns.
  assert (Eps : ptrs (n1 ++ (p, iv) :: n2) ++ opt tl = ptrs n1 ++ p :: q :: l3).
  { rewrite ptrs_app. cbn [ptrs map fst]. fold (ptrs n2). rewrite <- app_assoc. cbn [app]. rewrite El. reflexivity. }
  pose proof (l_nodup _ _ _ _ _ _ L) as ND. rewrite Eps in ND. pose proof (l_next _ _ _ _ _ _ L) as C. rewrite Eps in C.
  pose proof (l_prev _ _ _ _ _ _ L) as P. rewrite Eps in P.
  assert (Nq : next mn = hdor l3 None).
  { change (ptrs n1 ++ p :: q :: l3) with (ptrs n1 ++ [p] ++ q :: l3) in C. rewrite app_assoc in C. apply cseg_app in C as [_ [[m' [X Y]] _]]. rewrite En in X. injection X as <-. exact Y. }
  assert (Npq : p <> q).
  { intros ->. apply NoDup_appr in ND. inversion ND; subst. apply H1. left. reflexivity. }
  assert (Iv : iv = (address mb, size mb)).
  { pose proof (l_vals _ _ _ _ _ _ L) as V. unfold vals in V. rewrite Forall_forall in V. destruct (V (p, iv)) as [m' [X [Y Z]]]; [apply in_or_app; right; left; reflexivity|].
    cbn [fst snd] in *. rewrite Eb in X. injection X as <-. destruct iv; cbn [fst snd] in *; congruence. }
  assert (G := fun p m => l_mem _ _ _ _ _ _ L p m).
  apply bind_inv in R as [s1 [U1 R]]. apply bind_inv in R as [s2 [U2 R]]. apply bind_inv in R as [s3 [U3 R]]. apply bind_inv in R as [s4 [U4 R]].
  apply update_inv in U1 as [b1 [E1 ->]]. rewrite Eb in E1. injection E1 as <-.
  apply update_inv in U2 as [b2 [E2 ->]]. cbn [withMem mem] in E2. rewrite Nat.eqb_refl in E2. injection E2 as <-.
  apply update_inv in U3 as [b3 [E3 ->]]. cbn [withMem mem] in E3. rewrite (proj2 (Nat.eqb_neq q p)) in E3 by congruence. rewrite En in E3. injection E3 as <-.
  apply update_inv in U4 as [b4 [E4 ->]]. cbn [withMem mem] in E4. rewrite Nat.eqb_refl in E4. injection E4 as <-.
  cbn [withMem mem last len] in R.
  match type of R with coalesceInner fuel ?x p = _ => set (sx := x) in R end.
  assert (Mx : forall r, mem sx r = if Nat.eqb r q then Some (MB (address mn) (size mn) None None)
                          else if Nat.eqb r p then Some (MB (address mb) (size mb + size mn) (next mn) (prev mb)) else mem s r).
  { intro r. unfold sx. destruct (eqO (last s) q); cbn [withLen withLast withMem mem]; destruct (Nat.eqb r q); try reflexivity; destruct (Nat.eqb r p); reflexivity. }
  assert (Ax : last sx = if eqO (last s) q then Some p else last s) by (unfold sx; destruct (eqO (last s) q); reflexivity).
  assert (Fx : fresh sx = fresh s /\ first sx = first s /\ same s sx) by (unfold sx; destruct (eqO (last s) q); repeat split).
  destruct Fx as [Fx [Ix Sx]].
  assert (Mp : mem sx p = Some (MB (address mb) (size mb + size mn) (next mn) (prev mb))).
  { rewrite Mx. rewrite (proj2 (Nat.eqb_neq p q)) by exact Npq. rewrite Nat.eqb_refl. reflexivity. }
  assert (Mo : forall r, In r (ptrs n1 ++ l3) -> mem sx r = mem s r).
  { intros r X. rewrite Mx. assert (X2 : r <> p /\ r <> q).
    { split; intros ->.
      - apply NoDup_remove_2 in ND. apply ND. apply in_app_or in X as [X|X]; apply in_or_app; [auto|right; right; exact X].
      - change (ptrs n1 ++ p :: q :: l3) with (ptrs n1 ++ [p] ++ q :: l3) in ND. rewrite app_assoc in ND. apply NoDup_remove_2 in ND. apply ND.
        apply in_app_or in X as [X|X]; apply in_or_app; [left; apply in_or_app; auto|auto]. }
    destruct X2 as [X2 X3]. rewrite (proj2 (Nat.eqb_neq r q)) by exact X3. rewrite (proj2 (Nat.eqb_neq r p)) by exact X2. reflexivity. }
  destruct (ptr_merge (mem s) (mem sx) _ p q l3 mb _ ND C P Eb Mp Nq eq_refl Mo) as [ND' [C' P']].
  assert (Gx : forall r m, mem sx r = Some m -> (r < fresh sx)%nat /\ (forall d, prev m = Some d -> (d < fresh sx)%nat)).
  { intros r m X. rewrite Fx. rewrite Mx in X. destruct (Nat.eqb_spec r q) as [->|Y1]; [injection X as <-; cbn [prev]; split; [exact (proj1 (G _ _ En))|discriminate]|].
    destruct (Nat.eqb_spec r p) as [->|Y2]; [|apply G, X]. injection X as <-. cbn [prev]. exact (G _ _ Eb). }
  assert (Lx : forall x, last sx = Some x -> (x < fresh sx)%nat).
  { intros x X. rewrite Fx. rewrite Ax in X. destruct (eqO (last s) q); [injection X as <-; exact (proj1 (G _ _ Eb))|]. apply (l_last _ _ _ _ _ _ L), X. }
  assert (Fst : first sx = hdor (ptrs n1 ++ p :: l3) None).
  { rewrite Ix, (l_first _ _ _ _ _ _ L), Eps. destruct (ptrs n1); reflexivity. }
  assert (Vx : forall n, In n n1 \/ In (fst n) l3 /\ In n n2 -> exists m, mem sx (fst n) = Some m /\ address m = fst (snd n) /\ size m = snd (snd n)).
  { intros n X. pose proof (l_vals _ _ _ _ _ _ L) as V. unfold vals in V. rewrite Forall_forall in V. rewrite Mo.
    - apply V. apply in_or_app. destruct X as [X|[_ X]]; [auto|right; right; exact X].
    - apply in_or_app. destruct X as [X|[X _]]; [left; apply in_map, X|auto]. }
  assert (Goal1 : exists ns' tl', Links sx ns' tl' /\ okIv bs tot (ivs ns') us /\ In p (ptrs ns' ++ opt tl')).
  { destruct n2 as [|[q' jv] n3].
    - (* the last block is the one behind the good ones *)
      cbn [ptrs map app] in El. destruct tl as [t|]; [|discriminate]. injection El as -> <-.
      exists n1, (Some p). split; [|split; [eapply ok_sub; [|exact O]; rewrite ivs_app; reflexivity|apply in_or_app; right; left; reflexivity]].
      split; auto.
      + intros x X Y. rewrite Ax in X.
        assert (Q := l_end _ _ _ _ _ _ L). cbn beta iota in Q. destruct (eqO (last s) q) eqn:B.
        * apply eqO_spec in B. apply (Q q B). rewrite Eps. apply in_or_app. right. right. left. reflexivity.
        * apply (Q x X). rewrite Eps. cbn [opt] in Y. apply in_app_or in Y as [Y|[Y|[]]]; apply in_or_app; [auto|right; left; exact Y].
      + unfold vals. rewrite Forall_forall. intros n X. apply Vx. auto.
    - cbn [ptrs map fst app] in El. fold (ptrs n3) in El. injection El as -> El.
      assert (Jv : jv = (address mn, size mn)).
      { pose proof (l_vals _ _ _ _ _ _ L) as V. unfold vals in V. rewrite Forall_forall in V. destruct (V (q, jv)) as [m' [X [Y Z]]]; [apply in_or_app; right; right; left; reflexivity|].
        cbn [fst snd] in *. rewrite En in X. injection X as <-. destruct jv; cbn [fst snd] in *; congruence. }
      exists (n1 ++ (p, (address mb, size mb + size mn)) :: n3), tl.
      assert (Eps' : ptrs (n1 ++ (p, (address mb, size mb + size mn)) :: n3) ++ opt tl = ptrs n1 ++ p :: l3).
      { rewrite ptrs_app. cbn [ptrs map fst]. fold (ptrs n3). rewrite <- app_assoc. cbn [app]. rewrite El. reflexivity. }
      split; [|split].
      + split; auto; try rewrite Eps'; auto.
        * destruct tl as [t|].
          -- intros x X Y. rewrite Ax in X. assert (Q := l_end _ _ _ _ _ _ L). cbn beta iota in Q. destruct (eqO (last s) q) eqn:B.
             ++ apply eqO_spec in B. apply (Q q B). rewrite Eps. apply in_or_app. right. right. left. reflexivity.
             ++ apply (Q x X). rewrite Eps. apply in_app_or in Y as [Y|[Y|Y]]; apply in_or_app; [auto|right; left; exact Y|right; right; right; exact Y].
          -- right. cbn [opt] in El. rewrite app_nil_r in El. destruct (l_end _ _ _ _ _ _ L) as [Q|Q]; [destruct n1; discriminate|].
             rewrite Ax. rewrite ptrs_app, lastor_app in Q |- *. cbn [ptrs map fst lastor] in Q |- *. fold (ptrs n3) in Q |- *.
             destruct (ptrs n3) as [|x r] eqn:E3.
             ++ cbn [lastor] in Q |- *. rewrite Q. cbn [eqO]. rewrite Nat.eqb_refl. reflexivity.
             ++ cbn [lastor] in Q |- *. assert (B : eqO (last s) q = false).
                { apply eqO_false. rewrite Q. intro X. assert (In q (x :: r)).
                  { apply lastor_in in X as [X|[-> X]]; [right; exact X|]. injection X as ->. left. reflexivity. }
                  change (ptrs n1 ++ p :: q :: l3) with (ptrs n1 ++ [p] ++ q :: l3) in ND. rewrite app_assoc in ND. apply NoDup_remove_2 in ND. apply ND.
                  apply in_or_app. right. rewrite <- El. exact H. }
                rewrite B. exact Q.
        * unfold vals. rewrite Forall_forall. intros n X. apply in_app_or in X as [X|[<-|X]].
          -- apply Vx. auto.
          -- cbn [fst snd]. rewrite Mp. eexists. split; [reflexivity|]. auto.
          -- apply Vx. right. split; [|right; exact X]. rewrite <- El. apply in_or_app. left. apply in_map, X.
      + rewrite ivs_app in O |- *. cbn [ivs map snd] in O |- *. subst iv jv. apply ok_merge.
        * unfold cap in Ec. rewrite Ec. exact O.
        * apply Al. exact Eb.
      + rewrite Eps'. apply in_or_app. right. left. reflexivity. }
  destruct Goal1 as [ns1 [tl1 [L1 [O1 J1]]]].
  destruct (IH _ _ _ _ s' bs tot us L1 O1 J1) as [S2 H2]; [|exact R|split; [eapply same_trans; eauto|exact H2]].
  intros m X. rewrite Mp in X. injection X as <-. cbn [address]. apply Al, Eb.
Qed.

Lemma coalesceLoop_ok : forall fuel s ns tl b s' us tot,
  Links s ns tl -> okIv (blockSize s) tot (ivs ns) us -> (forall p, b = Some p -> In p (ptrs ns ++ opt tl)) -> coalesceLoop fuel s b = Some s' ->
  same s s' /\ exists ns' tl', Links s' ns' tl' /\ okIv (blockSize s') tot (ivs ns') us.
Proof.
  induction fuel as [|fuel IH]; intros s ns tl b s' us tot L O J R; [discriminate|]. destruct b as [p|].
  2:{ injection R as <-. split; [apply same_refl|]. eauto. }
  cbn [coalesceLoop] in R. apply bind_inv in R as [m [E R]]. unfold deref in E. specialize (J p eq_refl).
  apply bind_inv in R as [s1 [R1 R]]. apply bind_inv in R as [m1 [E1 R]]. unfold deref in E1.
  assert (H : same s s1 /\ exists ns' tl', Links s1 ns' tl' /\ okIv (blockSize s) tot (ivs ns') us /\ In p (ptrs ns' ++ opt tl')).
  { destruct (Z.eqb_spec (address m mod blockSize s) 0) as [Al|_]; cbn [negb] in R1.
    - eapply coalesceInner_ok; eauto. intros m' X. rewrite E in X. injection X as <-. exact Al.
    - injection R1 as <-. split; [apply same_refl|]. eauto. }
  destruct H as [S1 [ns1 [tl1 [L1 [O1 J1]]]]]. assert (Bs : blockSize s1 = blockSize s) by apply S1. rewrite <- Bs in O1.
  destruct (IH s1 ns1 tl1 (next m1) s' us tot L1 O1) as [S2 H2]; [|exact R|split; [eapply same_trans; eauto|exact H2]].
  intros q N. destruct (next_in _ _ _ _ _ _ L1 J1 E1 N) as [n1 [iv [n2 [l [X Y]]]]]. subst ns1.
  rewrite ptrs_app. cbn [ptrs map fst]. fold (ptrs n2). rewrite <- app_assoc. cbn [app]. rewrite Y. apply in_or_app. right. right. left. reflexivity.
Qed.
Lemma coalesce_ok s s' : Inv s -> coalesce s = Some s' -> same s s' /\ Inv s'.
Proof.
  intros [ns [tl [L O]]] R. destruct (coalesceLoop_ok _ _ _ _ _ _ (used s) (reserved s) L O ltac:(intros p X; eapply first_in; eauto) R) as [S [ns' [tl' [L' O']]]].
  split; [exact S|]. exists ns', tl'. split; [exact L'|]. destruct S as (_&_&_&X&Y&_). rewrite X, Y. exact O'.
Qed.

(** ** The calls *)
Lemma usedGet_in us a z : usedGet us a = Some z -> In (a, z) us.
Proof. induction us as [|[k v] us IH]; cbn [usedGet]; [discriminate|]. destruct (Z.eqb_spec k a) as [->|]; [intro E; injection E as ->; left; reflexivity|]. right. auto. Qed.

Lemma ok_give bs tot iv us a z : okIv bs tot iv us -> In (a, z) us -> okIv bs tot ((a, z) :: iv) (usedDel us a) /\ Permutation us ((a, z) :: usedDel us a).
Proof.
  intros O J. assert (Pu : Permutation us ((a, z) :: usedDel us a)).
  { pose proof (ok_pw O) as W. apply pairwise_app in W as [_ [W _]]. pose proof (ok_in O) as V. apply Forall_app in V as [_ V]. clear O.
    induction us as [|[k v] us IH]; [destruct J|]. cbn [pairwise] in W. destruct W as [W1 W2]. inversion V as [|? ? V1 V2]; subst.
    unfold usedDel. cbn [filter fst]. destruct J as [J|J].
    - injection J as -> ->. rewrite Z.eqb_refl. cbn [negb]. apply perm_skip. fold (usedDel us a). rewrite (usedDel_none us a z); [reflexivity| | |].
      + unfold inside in V1. tauto.
      + exact W1.
      + eapply Forall_impl; [|exact V2]. unfold inside. tauto.
    - assert (k <> a).
      { rewrite Forall_forall in W1, V2. specialize (W1 _ J). specialize (V2 _ J). unfold disjoint, inside in *. cbn [fst snd] in *. lia. }
      rewrite (proj2 (Z.eqb_neq k a)) by assumption. cbn [negb]. fold (usedDel us a).
      eapply perm_trans; [apply perm_skip, IH; assumption|]. apply perm_swap. }
  split; [|exact Pu]. destruct O as [A B C D]. apply (Permutation_Forall Pu) in D. inversion D as [|? ? D1 D2]; subst.
  assert (Pall : Permutation (iv ++ us) (((a, z) :: iv) ++ usedDel us a)).
  { eapply perm_trans; [apply Permutation_app_head, Pu|]. symmetry. apply Permutation_middle. }
  split; auto.
  - eapply pairwise_perm; eauto.
  - eapply Permutation_Forall; eauto.
Qed.

Lemma sizes_perm l l' : Permutation l l' -> sizes l = sizes l'.
Proof. intro P. induction P as [|x l l' P IH|x y l|l1 l2 l3 P1 IH1 P2 IH2]; unfold sizes in *; cbn [fold_right] in *; lia. Qed.
Lemma giveBack_ok s a z s' : Inv s -> In (a, z) (used s) -> giveBack s a z = Some s' ->
  Inv s' /\ used s' = usedDel (used s) a /\ start s' = start s /\ blockSize s' = blockSize s /\ reserved s' = reserved s /\
  allocated s' - sizes (used s') = allocated s - sizes (used s).
Proof.
  intros [ns [tl [L O]]] J R. unfold giveBack in R. destruct (newMemblock s a z) as [s1 k] eqn:En.
  apply bind_inv in R as [s2 [Ri R]]. injection R as <-. cbn [used start blockSize reserved allocated].
  destruct (ok_give _ _ _ _ _ _ O J) as [O' Pu].
  assert (Pn : Forall (fun x => 0 < snd x) (ivs ns)) by (eapply ok_pos, O).
  assert (Hz : 0 < z) by (apply ok_pos in O'; inversion O'; assumption).
  assert (Dn : Forall (disjoint (a, z)) (ivs ns)).
  { pose proof (ok_pw O') as W. cbn [app pairwise] in W. destruct W as [W _]. apply Forall_app in W as [W _]. exact W. }
  assert (E1 : s1 = fst (newMemblock s a z) /\ k = snd (newMemblock s a z)) by (rewrite En; auto). destruct E1 as [-> ->].
  destruct (insert_links _ _ _ _ _ _ _ (links_new _ _ _ a z L) (newBlock_new _ _ _ a z L Hz Pn Dn) Ri) as [S2 [_ [ns' [L2 Ins]]]].
  destruct S2 as (Q1&Q2&Q3&Q4&Q5&Q6&_). cbn [newMemblock fst start total blockSize reserved used allocated] in *.
  rewrite Q1, Q3, Q4, Q5, Q6. repeat split; try reflexivity; [|rewrite (sizes_perm _ _ Pu); unfold sizes; cbn [fold_right snd]; lia]. exists ns', tl. split; [exact L2|]. cbn [blockSize reserved used].
  destruct Ins as [[-> _]|[n1 [n2 [X ->]]]].
  - eapply ok_sub; [|exact O']. apply Permutation_cons_append.
  - eapply ok_perm; [|exact O']. rewrite X, !ivs_app. cbn [ivs map snd]. apply Permutation_middle.
Qed.

Lemma alloc_ok s z s' r : Inv s -> 0 < blockSize s -> alloc s z = Some (s', r) ->
  Inv s' /\ start s' = start s /\ blockSize s' = blockSize s /\ reserved s' = reserved s /\
  match r with Address a => used s' = (a - start s, z) :: used s /\ 0 < z | _ => used s' = used s end /\
  allocated s' - sizes (used s') = allocated s - sizes (used s).
Proof.
  intros V Hb R. unfold alloc in R. destruct (Z.leb_spec z 0); [injection R as <- <-; repeat split; auto|].
  apply bind_inv in R as [fit [Ef R]]. destruct fit as [g|].
  - destruct V as [ns [tl [L O]]]. destruct (bestFitLoop_in _ _ _ _ _ _ _ L ltac:(intros p X; eapply first_in; eauto) Ef) as [J Hm].
    destruct (take_ok _ _ _ _ _ z _ _ L O Hb ltac:(lia) eq_refl J Hm R) as [a [-> [V' [U [Q1 [Q2 [Q3 Q4]]]]]]].
    repeat split; auto; [rewrite U; f_equal; f_equal; lia|]. rewrite U, Q4. unfold sizes. cbn [fold_right snd]. lia.
  - apply bind_inv in R as [s1 [Rc R]]. destruct (coalesce_ok _ _ V Rc) as [S1 V1]. destruct S1 as (P1&P2&P3&P4&P5&P6&_).
    apply bind_inv in R as [fit2 [Ef2 R]]. destruct fit2 as [g|].
    + destruct V1 as [ns [tl [L O]]]. destruct (bestFitLoop_in _ _ _ _ _ _ _ L ltac:(intros p X; eapply first_in; eauto) Ef2) as [J Hm].
      assert (Ea : align s z = align s1 z) by (unfold align; rewrite P3; reflexivity). rewrite Ea in Hm, R. assert (Hb1 : 0 < blockSize s1) by lia.
      destruct (take_ok _ _ _ _ _ z _ _ L O Hb1 ltac:(lia) eq_refl J Hm R) as [a [-> [V' [U [Q1 [Q2 [Q3 Q4]]]]]]].
      repeat split; auto; try congruence; [rewrite U, P5, P1; f_equal; f_equal; lia|]. rewrite U, Q4, P5, P6. unfold sizes. cbn [fold_right snd]. lia.
    + injection R as <- <-. repeat split; auto. rewrite P5, P6. reflexivity.
Qed.

Lemma free_ok s a s' r : Inv s -> free s a = Some (s', r) ->
  Inv s' /\ start s' = start s /\ blockSize s' = blockSize s /\ reserved s' = reserved s /\ used s' = usedDel (used s) (a - start s) /\
  allocated s' - sizes (used s') = allocated s - sizes (used s).
Proof.
  intros V R. unfold free in R. destruct (usedGet (used s) (a - start s)) as [z|] eqn:E.
  - apply bind_inv in R as [s1 [Rg R]]. destruct (giveBack_ok _ _ _ _ V (usedGet_in _ _ _ E) Rg) as [V1 [U1 [Q1 [Q2 [Q3 Q4]]]]].
    destruct (thresh s1).
    + apply bind_inv in R as [s2 [Rc R]]. injection R as <- <-. destruct (coalesce_ok _ _ V1 Rc) as [(P1&P2&P3&P4&P5&P6&_) V2]. repeat split; congruence || auto.
    + injection R as <- <-. repeat split; auto.
  - injection R as <- <-. repeat split; auto. clear V. induction (used s) as [|[k v] us IH]; [reflexivity|]. cbn [usedGet] in E.
    unfold usedDel in *. cbn [filter fst]. destruct (k =? a - start s); [discriminate|]. cbn [negb]. f_equal. apply IH, E.
Qed.
