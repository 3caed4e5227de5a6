(** C104: nodes made by At, in the tape machine. *)
From Coq Require Import List Arith ZArith Lia Bool.
From Verif Require Import TapeModel TapeSpec TapeIntervals TapeProofs TapeHistory TapeProps AtSpec.
Import ListNotations.
Local Open Scope nat_scope.

(** ** No instruction *)
Lemma genFrom_nodes : forall ns rs rg is al cs code ins i, genFrom ns rs rg al is = cs ->
  In code cs -> In ins code -> nodeOf ins = Some i -> tk (nodeAt ns i) <> TAt.
Proof.
  intros ns rs rg. induction is as [|k is IH]; intros al cs code ins i E Hc Hi Hn; cbn [genFrom] in E; [subst; destruct Hc|].
  destruct (genNode ns rs rg al k) as [c0 al'] eqn:G. subst cs. destruct Hc as [<-|Hc]; [|eapply IH; eauto].
  unfold genNode in G. destruct (tk (nodeAt ns k)) eqn:K; [| | | | | |injection G as <- <-; destruct Hi].
  2,3,4: unfold addNode in G; injection G as <- <-; apply in_app_iff in Hi; destruct Hi as [Hi|Hi];
    match type of Hi with In _ (if ?b then _ else _) => destruct b end; try destruct Hi as [<-|[]]; try destruct Hi; cbn in Hn; injection Hn as <-; congruence.
  all: injection G as <- <-; destruct Hi as [<-|[]]; cbn in Hn; try discriminate; injection Hn as <-; congruence.
Qed.
(** The compiler makes no instruction for an At node. *)
Theorem C104_no_instruction : forall ns leaves ins i,
  tk (nodeAt ns i) = TAt -> In ins (compile ns leaves) -> nodeOf ins <> Some i.
Proof.
  intros ns leaves ins i K H E. unfold compile in H. apply in_concat in H as (code & Hc & Hi).
  exact (genFrom_nodes ns _ _ _ _ _ code ins i eq_refl Hc Hi E K).
Qed.
Print Assumptions C104_no_instruction.

(** ** No value *)
Section Bound.
Variable V : Type.
Variable blank : V.
Variable sem : nat -> list V -> option V.
Variable caddr : nat -> nat.
Variable ns : list tnode.
Lemma doOp_bound : forall m j l m' a, doOp sem caddr ns m j l = Some (m', a) -> bound m' = bound m.
Proof.
  intros m j l m' a E. unfold doOp in E. destruct (tk (nodeAt ns j)); try (injection E as <- _; reflexivity);
    destruct (sem _ _); try discriminate; destruct (talias _); [destruct (nth_error _ _); try discriminate| |destruct (nth_error _ _); try discriminate| |destruct (nth_error _ _); try discriminate| |destruct (nth_error _ _); try discriminate| |destruct (nth_error _ _); try discriminate| |destruct (nth_error _ _); try discriminate|];
    injection E as <- _; reflexivity.
Qed.
Lemma preDo_bound : forall m j p l m' a, preDo sem ns m j p l = Some (m', a) -> bound m' = bound m.
Proof.
  intros m j p l m' a E. unfold preDo in E. destruct (tpreok _); [|discriminate]. destruct (sem _ _); [|discriminate].
  injection E as <- _. reflexivity.
Qed.
Lemma unsafeDo_bound : forall m j l m' a, unsafeDo sem ns m j l = Some (m', a) -> bound m' = bound m.
Proof.
  intros m j l m' a E. unfold unsafeDo in E. destruct (tover _); [|discriminate]. destruct (nth_error _ _); [|discriminate].
  destruct (sem _ _); [|discriminate]. injection E as <- _. reflexivity.
Qed.
Lemma exec_bound : forall m ins m' i, exec blank sem caddr ns m ins = Some m' -> nodeOf ins <> Some i -> bound m' i = bound m i.
Proof.
  intros m ins m' i E N. destruct ins as [j w|j w|j rs w pre un| |j r]; cbn [exec nodeOf] in *.
  - destruct (bound m j); [|discriminate]. injection E as <-. reflexivity.
  - destruct (regs m w); [injection E as <-; reflexivity|]. injection E as <-. reflexivity.
  - unfold execOp in E. destruct (fetch m rs) as [args|]; [|discriminate].
    match type of E with match ?r with _ => _ end = _ => destruct r as [[m1 a]|] eqn:R; [|discriminate] end.
    injection E as <-. cbn [bound TapeModel.bind setReg]. unfold updN. destruct (Nat.eqb_spec i j) as [->|_]; [congruence|].
    assert (bound m1 = bound m) as ->; [|reflexivity].
    destruct pre; [destruct (tpre _); [destruct (regs m w); [|discriminate]|]|destruct (regs m w); [destruct (tpre _)|destruct un; [destruct (tunsafe _)|]]];
      eauto using doOp_bound, preDo_bound, unsafeDo_bound.
    destruct (preDo sem ns m j _ args) as [[m2 a2]|] eqn:P; [injection R as <- <-|]; eauto using doOp_bound, preDo_bound.
  - injection E as <-. reflexivity.
  - destruct (regs m r); [|discriminate]. injection E as <-. reflexivity.
Qed.
Lemma execAll_bound : forall is m i, (forall ins, In ins is -> nodeOf ins <> Some i) ->
  bound (fst (execAll blank sem caddr ns m is)) i = bound m i.
Proof.
  induction is as [|ins is IH]; intros m i H; cbn [execAll]; [reflexivity|].
  destruct (exec blank sem caddr ns m ins) as [m1|] eqn:E; [|reflexivity].
  specialize (IH m1 i (fun x Hx => H x (or_intror Hx))). destruct (execAll blank sem caddr ns m1 is) as [m2 k]. cbn [fst] in *.
  rewrite IH. eapply exec_bound; [exact E|]. apply H. left. reflexivity.
Qed.
End Bound.

(** Whatever runs, resets and new inputs follow each other: an At node that has no value never
    gets one, and a value given to it stays the same. *)
Theorem C104_never_bound : forall V (blank : V) sem caddr ns leaves v cs v' i,
  tk (nodeAt ns i) = TAt -> history blank sem caddr ns (compile ns leaves) v cs v' ->
  bound (vst v') i = bound (vst v) i /\ (bound (vst v) i = None -> nodeValue (vst v') i = None).
Proof.
  intros V blank sem caddr ns leaves v cs v' i K H.
  assert (B : bound (vst v') i = bound (vst v) i).
  { induction H as [|v c cs v' G H IH]; [reflexivity|]. rewrite IH. destruct c as [| |x|j a]; cbn [doCall].
    - unfold runAll. destruct (execAll blank sem caddr ns (vst v) (skipn (vpc v) (compile ns leaves))) as [m k] eqn:E. cbn [fst vst].
      change m with (fst (m, k)). rewrite <- E. apply execAll_bound. intros ins Hi.
      apply (C104_no_instruction ns leaves); [exact K|]. rewrite <- (firstn_skipn (vpc v) (compile ns leaves)). apply in_or_app. right. exact Hi.
    - reflexivity.
    - reflexivity.
    - cbn [letInput vst bound TapeModel.bind]. unfold updN. destruct G as [Gj _]. destruct (Nat.eqb_spec i j) as [->|_]; [congruence|reflexivity]. }
  split; [exact B|]. intros N. unfold nodeValue. rewrite B, N. reflexivity.
Qed.
Print Assumptions C104_never_bound.

(** ** What the users of an At read *)
Section Same.
Variable ns : list tnode.
Hypothesis AG : atGraph ns.
Hypothesis NL : noLet ns.
Hypothesis N0 : 0 < length ns.
Let ns' := ignoringAt ns.
Let n := length ns.

Lemma len' : length ns' = n.
Proof. unfold ns', ignoringAt. apply map_length. Qed.
Lemma at' : forall i, nodeAt ns' i = redirect (firstFor ns) (nodeAt ns i).
Proof.
  intros i. unfold ns', ignoringAt, nodeAt. change noNode with (redirect (firstFor ns) noNode) at 1. apply map_nth.
Qed.
Lemma firstFor_value : forall c, hasValue ns c -> firstFor ns c = c.
Proof. intros c (_ & _ & _ & H). unfold firstFor. destruct (tk (nodeAt ns c)); congruence. Qed.
Lemma hasValue' : forall i, hasValue ns' i <-> hasValue ns i.
Proof. intros i. unfold hasValue. rewrite len', at'. reflexivity. Qed.
Lemma hv0 : hasValue ns 0.
Proof. split; [exact N0|]. destruct (ag_first ns AG) as [-> | [-> | ->]]; repeat split; discriminate. Qed.

Lemma sorted' : sortedGraph ns'.
Proof.
  constructor; intros i; rewrite ?at', ?len'; cbn [redirect tk tkids tover textern tpre tpreok].
  - intros c Hi Hc. apply in_map_iff in Hc as (c0 & <- & Hc). destruct (ag_kids ns AG i c0 Hi Hc) as [L D].
    rewrite hasValue'. destruct D as [D|D].
    + rewrite firstFor_value by exact D. auto.
    + unfold firstFor. rewrite D. split; [lia|exact hv0].
  - intros Hi K. destruct (ag_leaf ns AG i Hi K) as (-> & A & B). auto.
  - intros Hi K. rewrite map_length. exact (ag_read ns AG i Hi K).
  - intros Hi K. exfalso. exact (NL i Hi K).
  - intros o Hi O K. rewrite map_length. destruct (ag_over ns AG i o Hi O K) as (c & Nth & _). apply nth_error_Some. congruence.
  - apply (ag_pre ns AG).
Qed.
Lemma leafy' : forall i, leafy ns' i = leafy ns i.
Proof. intros i. unfold leafy. rewrite at'. reflexivity. Qed.

Lemma hi_formula : forall ms i, i < length ms ->
  let iv := buildLoop ms (length ms) (fun _ => newInterval) i in
  let e := if leafy ms i then Z.of_nat (length ms) else Z.of_nat i in
  hi (buildIntervals ms i) = Z.max (maxZ (uses iv)) e /\
  (forall z, In z (uses iv) <->
     (exists p, p < length ms /\ z = Z.of_nat p /\ leafy ms p = false /\ In i (tkids (nodeAt ms p))) \/
     (leafy ms i = false /\ tderiv (nodeAt ms i) = true /\ z = Z.of_nat (length ms))).
Proof.
  intros ms i Hi iv e.
  destruct (inv_loop ms (length ms) _ (le_n _) (inv_start ms) i Hi) as (A & _ & C).
  destruct (A (Nat.le_0_l i)) as (_ & E & R). cbn zeta in *. fold iv in E, R, C. split.
  - unfold buildIntervals. fold iv. unfold fixIv. destruct (uses iv) as [|u us] eqn:U.
    + rewrite E. fold e. assert (0 <= e)%Z by (unfold e; destruct (leafy ms i); lia). cbn [maxZ fold_right]. lia.
    + cbn [hi]. rewrite R. cbn [fold_left snd]. fold e. destruct (Z.ltb_spec (maxZ (u :: us)) e); lia.
  - intros z. rewrite C. split; (intros [(p & Hp & Q)|Q]; [left; exists p; split; [lia|exact Q]|right]).
    + destruct Q as (_ & Q). exact Q.
    + split; [lia|exact Q].
Qed.
Lemma maxZ_same : forall l l', (forall z, In z l <-> In z l') -> maxZ l = maxZ l'.
Proof.
  assert (U : forall l b, (-1 <= b)%Z -> (forall z, In z l -> (z <= b)%Z) -> (maxZ l <= b)%Z).
  { induction l as [|a l IH]; intros b Hb H; cbn [maxZ fold_right]; [exact Hb|]. fold (maxZ l).
    pose proof (H a (or_introl eq_refl)). specialize (IH b Hb (fun z Hz => H z (or_intror Hz))). lia. }
  assert (Lo : forall l, (-1 <= maxZ l)%Z) by (induction l as [|a l IH]; cbn [maxZ fold_right]; [lia|fold (maxZ l); lia]).
  intros l l' H. apply Z.le_antisymm; (apply U; [apply Lo|]; intros z Hz; apply (maxZ_ge ns); apply H; exact Hz).
Qed.

Lemma end' : forall c, hasValue ns c -> hi (buildIntervals ns' c) = hi (buildIntervals ns c).
Proof.
  intros c HV. destruct HV as (Hc & HV). assert (Hc' : c < length ns') by (rewrite len'; exact Hc).
  destruct (hi_formula ns c Hc) as [-> U]. destruct (hi_formula ns' c Hc') as [-> U']. cbn zeta in *. rewrite len' in *.
  set (us := uses (buildLoop ns (length ns) (fun _ => newInterval) c)) in *.
  set (us' := uses (buildLoop ns' n (fun _ => newInterval) c)) in *.
  rewrite leafy' in *. destruct (leafy ns c) eqn:Lf.
  - assert (B : forall l, (forall z, In z l -> (z <= Z.of_nat n)%Z) -> (maxZ l <= Z.of_nat n)%Z).
    { induction l as [|a l IH]; intros H; cbn [maxZ fold_right]; [lia|]. fold (maxZ l).
      pose proof (H a (or_introl eq_refl)). specialize (IH (fun z Hz => H z (or_intror Hz))). lia. }
    assert (B1 : (maxZ us <= Z.of_nat n)%Z).
    { apply B. intros z Hz. apply U in Hz. destruct Hz as [(p & Hp & -> & _)|(Q & _)]; [unfold n; lia|discriminate]. }
    assert (B2 : (maxZ us' <= Z.of_nat n)%Z).
    { apply B. intros z Hz. apply U' in Hz. destruct Hz as [(p & Hp & -> & _)|(Q & _)]; [unfold n; lia|discriminate]. }
    unfold n in *. lia.
  - f_equal. apply maxZ_same. intros z. rewrite U, U', at'. cbn [redirect tderiv].
    assert (c <> 0) as Cz.
    { intros ->. assert (leafy ns 0 = true) by (apply leafy_iff, (ag_first ns AG)). congruence. }
    assert (Kid : forall p, p < n -> (In c (tkids (nodeAt ns' p)) <-> In c (tkids (nodeAt ns p)))).
    { intros p Hp. rewrite at'. cbn [redirect tkids]. rewrite in_map_iff. split.
      - intros (c0 & E & I). unfold firstFor in E. destruct (tk (nodeAt ns c0)); congruence.
      - intros I. exists c. split; [|exact I]. apply firstFor_value. split; [exact Hc|exact HV]. }
    split; (intros [(p & Hp & Ez & Lp & I)|Q]; [left; exists p|right; exact Q]).
    + rewrite leafy' in Lp. split; [exact Hp|]. split; [exact Ez|]. split; [exact Lp|]. apply Kid; assumption.
    + rewrite leafy'. split; [exact Hp|]. split; [exact Ez|]. split; [exact Lp|]. apply Kid; assumption.
Qed.
Lemma live' : forall c i, hasValue ns c -> liveAt (buildIntervals ns' c) i = liveAt (buildIntervals ns c) i.
Proof.
  intros c i HV. unfold liveAt. rewrite end' by exact HV.
  rewrite (interval_start ns c (proj1 HV)), (interval_start ns' c) by (rewrite len'; exact (proj1 HV)). reflexivity.
Qed.
Lemma noLet' : noLet ns'.
Proof. intros i Hi. rewrite at'. cbn. apply NL. rewrite len' in Hi. exact Hi. Qed.

Lemma ra' : forall k, k <= n -> cpucount (raAt ns' k) = cpucount (raAt ns k) /\ forall i, res (raAt ns' k) i = res (raAt ns k) i.
Proof.
  induction k as [|k IH]; intros Hk; [split; reflexivity|].
  destruct (IH ltac:(lia)) as [IC IR]. rewrite !raAt_S. unfold allocStep. rewrite len'. fold n. rewrite !(replOf_id ns).
  rewrite at'. cbn [redirect tk tptr].
  assert (U : forall v v' (f f' : nat -> nat), v = v' -> (forall i, f i = f' i) -> forall i, updN f k v i = updN f' k v' i)
    by (intros v v' f f' -> Hf i; unfold updN; destruct (Nat.eqb i k); auto).
  destruct (tk (nodeAt ns k)) eqn:K; cbn [cpucount res]; try (split; [congruence|apply U; congruence]).
  all: destruct (tptr (nodeAt ns k)); [|cbn [cpucount res]; split; [congruence|apply U; congruence]].
  all: unfold allocMutableOp; rewrite at', (letParents_0 ns NL), (letParents_0 ns' noLet'); cbn [redirect tkids tover textern];
    destruct (tover (nodeAt ns k)) as [o|] eqn:O; [|cbn [cpucount res]; split; [congruence|apply U; congruence]].
  1,2: destruct (ag_leaf ns AG k ltac:(unfold n in Hk; lia) ltac:(tauto)) as (_ & W & _); congruence.
  destruct (ag_over ns AG k o ltac:(unfold n in Hk; lia) O K) as (c & Nth & NA).
  destruct (ag_kids ns AG k c ltac:(unfold n in Hk; lia) (nth_error_In _ _ Nth)) as [_ [HV|W]]; [|congruence].
  assert (E1 : nth o (tkids (nodeAt ns k)) 0 = c) by (apply nth_error_nth; exact Nth).
  assert (E2 : nth o (map (firstFor ns) (tkids (nodeAt ns k))) 0 = c).
  { rewrite <- (firstFor_value c HV). apply nth_error_nth. rewrite nth_error_map, Nth. reflexivity. }
  assert (X : replOf (seq 0 n) c = c) by apply (replOf_id ns). rewrite E1, E2, X, live', IR, IC by exact HV.
  match goal with |- context [if ?b then _ else _] => destruct b end; cbn [cpucount res]; (split; [congruence|apply U; congruence]).
Qed.
Lemma loc' : forall i, loc ns' i = loc ns i.
Proof. intros i. unfold loc. rewrite len'. apply ra'. lia. Qed.
Lemma loc_at : forall i, i < n -> tk (nodeAt ns i) = TAt -> loc ns i = 0.
Proof.
  intros i Hi K. unfold loc. fold n. rewrite raAt_res by exact Hi. rewrite raAt_S. unfold allocStep.
  rewrite K, (replOf_id ns). cbn [res]. unfold updN. rewrite Nat.eqb_refl. reflexivity.
Qed.
Lemma loc_0 : loc ns 0 = 0.
Proof.
  unfold loc. fold n. rewrite raAt_res by exact N0. rewrite raAt_S. unfold allocStep. rewrite (replOf_id ns).
  unfold raAt. cbn [seq fold_left].
  destruct (ag_leaf ns AG 0 N0 (ag_first ns AG)) as (_ & O & _).
  destruct (ag_first ns AG) as [-> | [-> | ->]]; try destruct (tptr (nodeAt ns 0)); cbn [res cpucount]; unfold allocMutableOp; rewrite ?O; reflexivity.
Qed.
Lemma loc_kid : forall i c, i < n -> In c (tkids (nodeAt ns i)) -> loc ns (firstFor ns c) = loc ns c.
Proof.
  intros i c Hi Hc. destruct (ag_kids ns AG i c Hi Hc) as [L [HV|K]]; [rewrite firstFor_value by exact HV; reflexivity|].
  unfold firstFor. rewrite K, loc_0, loc_at; [reflexivity|unfold n in *; lia|exact K].
Qed.
Hypothesis NC : noCollision ns.
Variable leaves : list nat.
Hypothesis LV : forall p, In p leaves -> p < length ns.
Lemma noCollision' : noCollision ns'.
Proof. intros i j. rewrite len', !at'. cbn. apply NC. Qed.
Lemma leaves' : forall p, In p leaves -> p < length ns'.
Proof. intros p H. rewrite len'. apply LV, H. Qed.
Lemma codes' : codes ns' leaves = codes ns leaves.
Proof.
  unfold codes. rewrite (replacements_id ns NC leaves LV), (replacements_id ns' noCollision' leaves leaves'), len'. fold n.
  assert (RG : forall i, res (regalloc ns (seq 0 n) (buildIntervals ns)) i = loc ns i) by reflexivity.
  assert (RG' : forall i, res (regalloc ns' (seq 0 n) (buildIntervals ns')) i = loc ns i).
  { intros i. rewrite <- loc'. unfold loc, regalloc, raAt. rewrite !len'. reflexivity. }
  set (rg := res (regalloc ns (seq 0 n) (buildIntervals ns))) in *. set (rg' := res (regalloc ns' (seq 0 n) (buildIntervals ns'))) in *.
  assert (W : forall len i al, i + len = n -> genFrom ns' (seq 0 n) rg' al (seq i len) = genFrom ns (seq 0 n) rg al (seq i len)).
  { induction len as [|len IH]; intros i al Hl; [reflexivity|]. cbn [seq genFrom].
    assert (GN : genNode ns' (seq 0 n) rg' al i = genNode ns (seq 0 n) rg al i).
    { assert (Rd : map (fun c => rg' (replOf (seq 0 n) c)) (tkids (nodeAt ns' i)) = map (fun c => rg (replOf (seq 0 n) c)) (tkids (nodeAt ns i))).
      { rewrite at'. cbn [redirect tkids]. rewrite map_map. apply map_ext_in. intros c Hc. rewrite !(replOf_id ns), RG, RG'. eapply loc_kid; [|exact Hc]. lia. }
      unfold genNode, addNode. rewrite Rd. rewrite at'. unfold isMutable, isInput. cbn [redirect tk tover textern tptr].
      assert (X : replOf (seq 0 n) i = i) by apply (replOf_id ns). rewrite !X, RG, RG'.
      destruct (tk (nodeAt ns i)) eqn:K; try reflexivity.
      cbn [tkids]. f_equal. f_equal. f_equal.
      destruct (tkids (nodeAt ns i)) as [|c l] eqn:Ks.
      - pose proof (ag_read ns AG i ltac:(unfold n in *; lia) K) as Z. rewrite Ks in Z. discriminate.
      - rewrite RG, RG'. cbn [redirect tkids]. rewrite Ks. cbn [map nth]. eapply loc_kid; [|rewrite Ks; left; reflexivity]. lia. }
    rewrite GN. destruct (genNode ns (seq 0 n) rg al i) as [code al']. rewrite IH by lia. reflexivity. }
  apply W. reflexivity.
Qed.
End Same.

Section Exec.
Variable V : Type.
Variable blank : V.
Variable sem : nat -> list V -> option V.
Variable caddr : nat -> nat.
Variable ns : list tnode.
Lemma exec' : forall m ins, exec blank sem caddr (ignoringAt ns) m ins = exec blank sem caddr ns m ins.
Proof. intros m ins. destruct ins; try reflexivity. cbn [exec]. unfold execOp, preDo, unsafeDo, doOp. rewrite at'. reflexivity. Qed.
Lemma execAll' : forall is m, execAll blank sem caddr (ignoringAt ns) m is = execAll blank sem caddr ns m is.
Proof.
  induction is as [|ins is IH]; intros m; cbn [execAll]; [reflexivity|]. rewrite exec'. destruct (exec blank sem caddr ns m ins); [|reflexivity].
  rewrite IH. reflexivity.
Qed.
End Exec.

(** An At node lives in register 0, which belongs to the first node. Every node using an At
    is computed as if it used the first node. *)
Theorem C104_register : forall ns leaves i, atGraph ns -> noLet ns -> noCollision ns -> (forall p, In p leaves -> p < length ns) ->
  i < length ns -> tk (nodeAt ns i) = TAt -> locOf ns leaves i = 0 /\ locOf ns leaves 0 = 0 /\
  forall j, hasValue ns j -> 0 < j -> locOf ns leaves j <> 0.
Proof.
  intros ns leaves i AG NL NC LV Hi K. assert (N0 : 0 < length ns) by lia.
  rewrite !(locOf_loc ns NC leaves LV). split; [apply loc_at; assumption|]. split; [apply loc_0; assumption|].
  intros j HV Hj E. rewrite (locOf_loc ns NC leaves LV) in E. rewrite <- (loc' ns AG NL N0) in E.
  assert (SG := sorted' ns AG NL N0).
  destruct (loc_shared_spec (ignoringAt ns) SG (noLet' ns NL) j 0) as (NK & _).
  - apply hasValue'; assumption.
  - apply hasValue', hv0; assumption.
  - exact Hj.
  - rewrite E, (loc' ns AG NL N0), loc_0; auto.
  - apply NK. unfold kept. rewrite at'. cbn [redirect tk]. destruct (ag_first ns AG) as [Q|[Q|Q]]; auto.
Qed.
Print Assumptions C104_register.
Theorem C104_reads_first : forall V (blank : V) sem caddr ns leaves m0,
  atGraph ns -> noLet ns -> noAlias ns -> noCollision ns -> 0 < length ns ->
  (forall p, In p leaves -> p < length ns) -> ready ns caddr m0 ->
  (forall i, hasValue ns i -> exists v, evals (ignoringAt ns) sem (given ns caddr m0) i v) ->
  exists m, runAll blank sem caddr ns (compile ns leaves) (VM m0 0) = (VM m (length (compile ns leaves)), true) /\
    (forall i, hasValue ns i -> kept ns i \/ (forall k, ~ usedBy ns i k) ->
       exists v, evals (ignoringAt ns) sem (given ns caddr m0) i v /\
                 regValue m (locOf ns leaves i) = Some v /\ nodeValue m i = Some v) /\
    (forall i c, i < length ns -> tk (nodeAt ns i) = TRead -> tkids (nodeAt ns i) = [c] ->
       exists v, evals (ignoringAt ns) sem (given ns caddr m0) (firstFor ns c) v /\ cells m i = Some v).
Proof.
  intros V blank sem caddr ns leaves m0 AG NL NA NC N0 LV RD Hv.
  assert (SG := sorted' ns AG NL N0).
  assert (NA' : noAlias (ignoringAt ns)) by (intros i Hi; rewrite at'; cbn; apply NA; rewrite len' in Hi; exact Hi).
  assert (RD' : ready (ignoringAt ns) caddr m0).
  { destruct RD as [R1 R2 R3]. constructor; [exact R1| |]; intros i Hi K; rewrite len' in Hi; rewrite at' in K; auto. }
  assert (GV : forall i, given (ignoringAt ns) caddr m0 i = given ns caddr m0 i) by (intros i; unfold given; rewrite at'; reflexivity).
  assert (EV : forall i v, evals (ignoringAt ns) sem (given (ignoringAt ns) caddr m0) i v <-> evals (ignoringAt ns) sem (given ns caddr m0) i v).
  { assert (G : forall f g : nat -> V, (forall i, f i = g i) -> forall i v, evals (ignoringAt ns) sem f i v -> evals (ignoringAt ns) sem g i v).
    { intros f g Efg i v E. revert i v E.
      apply (evals_mut (ignoringAt ns) V sem f (evals (ignoringAt ns) sem g) (evalsAll (ignoringAt ns) sem g)).
      - intros i Hi K. rewrite Efg. apply ev_arg; assumption.
      - intros i Hi K. rewrite Efg. apply ev_const; assumption.
      - intros i vs v Hi K _ A S0. eapply ev_op; eassumption.
      - constructor.
      - intros. constructor; assumption. }
    intros i v. split; apply G; intros j; rewrite GV; reflexivity. }
  destruct (C09_at_the_end V blank sem caddr (ignoringAt ns) leaves m0 SG (noLet' ns NL) NA' (noCollision' ns NC) (leaves' ns leaves LV) RD')
    as (m & R & A & B).
  { intros i HV. apply (hasValue' ns) in HV. destruct (Hv i HV) as [v E]. exists v. apply EV, E. }
  assert (CE : compile (ignoringAt ns) leaves = compile ns leaves) by (unfold compile; rewrite (codes' ns AG NL N0 NC leaves LV); reflexivity).
  rewrite CE in R. exists m. split.
  { rewrite <- R. unfold runAll. rewrite execAll'. reflexivity. }
  assert (LO : forall i, locOf (ignoringAt ns) leaves i = locOf ns leaves i).
  { intros i. rewrite (locOf_loc ns NC leaves LV), (locOf_loc _ (noCollision' ns NC) leaves (leaves' ns leaves LV)). apply loc'; assumption. }
  split.
  - intros i HV D. destruct (Nat.eq_dec i 0) as [->|Nz].
    + destruct (A 0) as (v & E & R1 & R2).
      * apply hasValue', hv0; assumption.
      * left. unfold kept. rewrite at'. cbn [redirect tk]. destruct (ag_first ns AG) as [Q|[Q|Q]]; auto.
      * exists v. rewrite <- LO. split; [apply EV, E|auto].
    + destruct (A i) as (v & E & R1 & R2).
      * apply hasValue'; assumption.
      * destruct D as [D|D]; [left; unfold kept in *; rewrite at'; exact D|]. right. intros k (Hk & I). rewrite len' in Hk. rewrite at' in I.
        cbn [redirect tkids] in I. apply in_map_iff in I as (c & E & I). apply (D k). split; [exact Hk|].
        unfold firstFor in E. destruct (tk (nodeAt ns c)); congruence.
      * exists v. rewrite <- LO. split; [apply EV, E|auto].
  - intros i c Hi K Ks. destruct (B i (firstFor ns c)) as (v & E & R1).
    + rewrite len'. exact Hi.
    + rewrite at'. exact K.
    + rewrite at'. cbn [redirect tkids]. rewrite Ks. reflexivity.
    + exists v. split; [apply EV, E|exact R1].
Qed.
Print Assumptions C104_reads_first.

(** ** The example: s, x, y are inputs, [a = At(x)], [b = a + y], [c = Read(b)]. *)
Definition exAt : list tnode :=
  [ arg_ 0; arg_ 1; arg_ 2;
    TNode TAt [1] 3 false false None false false false None false 3;
    TNode TOp [3; 2] 2 true false (Some 1) true true true None false 4;
    TNode TRead [4] 0 true false (Some 0) false false false None false 5 ].
(** operator 3: the element (here: a number's last digit); the values are 5, 17 and 3. *)
Definition exAtSem (op : nat) (vs : list nat) : option nat :=
  match op, vs with
  | 2, [a; b] => Some (a + b)
  | 3, [a] => Some (a mod 10)
  | _, _ => None
  end.
Definition exAtM : mstate nat :=
  MState (fun _ => None) (fun a => match a with 0 => 5 | 1 => 17 | 2 => 3 | _ => 0 end) 3
         (fun i => match i with 0 => Some 0 | 1 => Some 1 | 2 => Some 2 | _ => None end) (fun _ => None).
Lemma exAt_graph : atGraph exAt.
Proof.
  constructor; [left; reflexivity|..]; intros i; do 6 (destruct i as [|i]; [cbn; intros; unfold hasValue; cbn;
    repeat match goal with
           | H : _ \/ _ |- _ => destruct H
           | H : False |- _ => destruct H
           | H : Some _ = Some _ |- _ => injection H as H
           end; subst; try discriminate;
    try (eexists; split; [reflexivity|discriminate]);
    repeat split; cbn; try lia; try discriminate; try reflexivity; try (left; repeat split; cbn; try lia; discriminate); try (right; reflexivity) |]); cbn; intros; try lia.
Qed.
Lemma exAt_noLet : noLet exAt.
Proof. intros i Hi. do 6 (destruct i as [|i]; [cbn; discriminate|]). cbn in Hi. lia. Qed.
Lemma exAt_noAlias : noAlias exAt.
Proof. intros i Hi. do 6 (destruct i as [|i]; [reflexivity|]). cbn in Hi. lia. Qed.
Lemma exAt_noCollision : noCollision exAt.
Proof.
  assert (H : forall k, k < 6 -> thash (nodeAt exAt k) = k).
  { intros k Hk. do 6 (destruct k as [|k]; [reflexivity|]). lia. }
  intros i j Hi Hj E. cbn in Hi, Hj. rewrite !H in E by lia. exact E.
Qed.
Lemma exAt_leaves : forall p, In p [0; 1; 2] -> p < length exAt.
Proof. cbn. intros p [<-|[<-|[<-|[]]]]; lia. Qed.
Lemma exAt_ready : ready exAt exCaddr exAtM.
Proof.
  constructor.
  - reflexivity.
  - intros i Hi K. do 6 (destruct i as [|i]; [cbn in K; try discriminate; (eexists; split; [reflexivity|cbn; lia])|]).
    cbn in Hi. lia.
  - intros i Hi K. do 6 (destruct i as [|i]; [cbn in K; try discriminate; unfold exCaddr; cbn; lia|]).
    cbn in Hi. lia.
Qed.
(** The machine says 8 = 5 + 3 and reports no error; 10 = 7 + 3 was meant. *)
Example C104_ex :
  let r := runAll 0 exAtSem exCaddr exAt (compile exAt [0; 1; 2]) (VM exAtM 0) in
  snd r = true /\ nodeValue (vst (fst r)) 4 = Some 8 /\ cells (vst (fst r)) 5 = Some 8 /\ nodeValue (vst (fst r)) 3 = None /\
  compile exAt [0; 1; 2] = [ILoad 0 0; ILoad 1 1; ILoad 2 2; IExec 4 [0; 2] 3 false false; IRead 5 3].
Proof. vm_compute. repeat split. Qed.
Lemma exAt_hyp : forall i, hasValue exAt i -> exists v, evals (ignoringAt exAt) exAtSem (given exAt exCaddr exAtM) i v.
Proof.
  assert (E0 : evals (ignoringAt exAt) exAtSem (given exAt exCaddr exAtM) 0 (given exAt exCaddr exAtM 0)) by (apply ev_arg; [cbn; lia|reflexivity]).
  assert (E1 : evals (ignoringAt exAt) exAtSem (given exAt exCaddr exAtM) 1 (given exAt exCaddr exAtM 1)) by (apply ev_arg; [cbn; lia|reflexivity]).
  assert (E2 : evals (ignoringAt exAt) exAtSem (given exAt exCaddr exAtM) 2 (given exAt exCaddr exAtM 2)) by (apply ev_arg; [cbn; lia|reflexivity]).
  intros i (Hi & N1 & N2 & N3). destruct i as [|[|[|[|[|[|i]]]]]]; try solve [eexists; eassumption]; try (cbn in *; congruence); [|cbn in Hi; lia].
  exists 8. eapply ev_op with (vs := [5; 3]); [cbn; lia|left; reflexivity| |reflexivity].
  constructor; [exact E0|]. constructor; [exact E2|constructor].
Qed.
(** The hypotheses of C104_reads_first hold for it. *)
Example C104_reads_first_ex : exists m,
  runAll 0 exAtSem exCaddr exAt (compile exAt [0; 1; 2]) (VM exAtM 0) = (VM m 5, true) /\
  exists v, evals (ignoringAt exAt) exAtSem (given exAt exCaddr exAtM) 4 v /\ cells m 5 = Some v.
Proof.
  destruct (C104_reads_first nat 0 exAtSem exCaddr exAt [0; 1; 2] exAtM exAt_graph exAt_noLet exAt_noAlias exAt_noCollision ltac:(cbn; lia)
    exAt_leaves exAt_ready exAt_hyp) as (m & R & _ & C).
  exists m. split; [exact R|]. exact (C 5 4 ltac:(cbn; lia) eq_refl eq_refl).
Qed.
(** A run without an error need not compute the expressions that use At. *)
Theorem C104_refuted :
  ~ (forall V (blank : V) sem caddr ns leaves m0 i v v',
     atGraph ns -> noLet ns -> noAlias ns -> noCollision ns -> (forall p, In p leaves -> p < length ns) -> ready ns caddr m0 ->
     hasValue ns i -> (forall k, hasValue ns k -> ~ usedBy ns i k) -> evals (meant ns) sem (given ns caddr m0) i v ->
     runAll blank sem caddr ns (compile ns leaves) (VM m0 0) = (v', true) -> nodeValue (vst v') i = Some v).
Proof.
  intro H. specialize (H nat 0 exAtSem exCaddr exAt [0; 1; 2] exAtM 4 10 (fst (runAll 0 exAtSem exCaddr exAt (compile exAt [0; 1; 2]) (VM exAtM 0)))
    exAt_graph exAt_noLet exAt_noAlias exAt_noCollision exAt_leaves exAt_ready).
  assert (X : nodeValue (vst (fst (runAll 0 exAtSem exCaddr exAt (compile exAt [0; 1; 2]) (VM exAtM 0)))) 4 = Some 8) by (vm_compute; reflexivity).
  rewrite X in H. discriminate H.
  - repeat split; [cbn; lia|discriminate..].
  - intros k (Hk & _ & K & _) (_ & I). do 6 (destruct k as [|k]; [cbn in I, K; intuition (try lia; try congruence)|]). cbn in Hk. lia.
  - assert (E1 : evals (meant exAt) exAtSem (given exAt exCaddr exAtM) 1 (given exAt exCaddr exAtM 1)) by (apply ev_arg; [cbn; lia|reflexivity]).
    assert (E2 : evals (meant exAt) exAtSem (given exAt exCaddr exAtM) 2 (given exAt exCaddr exAtM 2)) by (apply ev_arg; [cbn; lia|reflexivity]).
    eapply ev_op with (vs := [7; 3]); [cbn; lia|left; reflexivity| |reflexivity].
    constructor; [|constructor; [exact E2|constructor]].
    eapply ev_op with (vs := [17]); [cbn; lia|left; reflexivity| |reflexivity]. constructor; [exact E1|constructor].
  - vm_compute. reflexivity.
Qed.
Print Assumptions C104_refuted.
