(** C121: flushes around device transports in CUDA builds. *)
From Coq Require Import List Arith Bool Lia.
From Verif Require Import TpModel TpSpec TpProofs.
Import ListNotations.
Local Open Scope nat_scope.

(** Between a transport and any operation that reads the register it filled there is a
    flush, for whatever sorted list and registers the generator is given. *)
Theorem C121_flushed_before_use : forall items a j f r b i rs w c,
  gen items = a ++ ITrans j f r :: b ++ IExec i rs w :: c ->
  (exists toHost target, transportAt items j toHost target) ->
  In r rs -> (forall ins, In ins b -> ~ writes r ins) -> In IFlush b.
Proof.
  intros items a j f r b i rs w c E T R W.
  destruct (gen_inv items) as (st & IV). assert (OK := invE _ _ _ _ IV).
  destruct (in_dec (fun x y : instr => ltac:(repeat decide equality) : {x = y} + {x <> y}) IFlush b) as [H|N]; [exact H|exfalso].
  change (a ++ ITrans j f r :: b ++ IExec i rs w :: c) with (a ++ (ITrans j f r :: b) ++ IExec i rs w :: c) in E.
  rewrite app_assoc in E. apply (OK _ _ _ _ _ E r j R).
  - rewrite lw_app. cbn [fold_left]. rewrite lw_keep by exact W. cbn. rewrite Nat.eqb_refl. reflexivity.
  - exact T.
  - rewrite pend_app. cbn [fold_left]. apply pd_keep; [left; reflexivity|exact N].
Qed.
Print Assumptions C121_flushed_before_use.

(** A transport back to the host is directly followed by a flush, since the node it is
    for comes later in the list. *)
Theorem C121_to_host : forall items a j f r c target,
  gen items = a ++ ITrans j f r :: c -> transportAt items j true target -> j < target ->
  exists c', c = IFlush :: c'.
Proof.
  intros items a j f r c target E T L. destruct (gen_inv items) as (st & IV).
  exact (invF _ _ _ _ IV a j f r c target E T L).
Qed.
Print Assumptions C121_to_host.

(** Between a transport and the operation it was inserted for there is a flush, and until
    then no other operation or statement runs, so nothing can overwrite the
    memory it copies from or to. *)
Theorem C121_nothing_between : forall items j k tr op,
  nth_error items j = Some tr -> nth_error items k = Some op ->
  (exists toHost target, nkind tr = KTrans toHost target) -> wantedBy items j k ->
  exists a b c f, gen items = a ++ ITrans j f (nreg tr) :: b ++ IExec k (nreads op) (nreg op) :: c /\
    In IFlush b /\ forall ins, In ins b -> ~ executes ins.
Proof.
  intros items j k tr op NJ NK KT WB.
  destruct (to_wanted items j k tr op NJ NK KT WB) as (a & b & c & E & Q).
  exists a, b, c, (hd 0 (nreads tr)). split; [exact E|]. split; [|intros ins H; exact (proj1 (Q ins H))].
  apply (C121_flushed_before_use items _ _ _ _ _ _ _ _ _ E).
  - destruct KT as (h & t & K). exists h, t, tr. split; assumption.
  - destruct WB as (_ & (op' & N' & _ & _ & tr' & NJ' & RD & _) & _). congruence.
  - intros ins H. exact (proj2 (Q ins H)).
Qed.
Print Assumptions C121_nothing_between.

(** No register is given memory twice, so an alloc does not come between a transport
    and its readers. *)
Theorem C121_allocated_once : forall items a i w b i' c,
  gen items = a ++ IAlloc i w :: b ++ IAlloc i' w :: c -> False.
Proof.
  intros items a i w b i' c E. destruct (gen_inv items) as (st & IV). assert (D := invH _ _ _ _ IV).
  rewrite E in D. rewrite allocs_app in D. cbn [allocsOf flat_map] in D. fold (allocsOf (b ++ IAlloc i' w :: c)) in D.
  rewrite allocs_app in D. cbn [app] in D. apply NoDup_remove_2 in D. apply D.
  apply in_or_app. right. apply in_or_app. right. left. reflexivity.
Qed.
Print Assumptions C121_allocated_once.

(** For an operation on the card the same does not hold: the generator counts a node as
    flushed as soon as it flushes for one of the node's operands, which is before the
    node's own instruction.  A later operation on the host that reads the node's
    register without a transport gets no flush.  (In the compiler such an operation
    has a transport; C97.) *)
Theorem C121_operation_refuted : exists items a j rj r b i rs w c tj ti,
  nth_error items j = Some tj /\ nextern tj = true /\ nth_error items i = Some ti /\ nextern ti = false /\
  gen items = a ++ IExec j rj r :: b ++ IExec i rs w :: c /\ In r rs /\ ~ In IFlush b.
Proof.
  exists [Item KArg false false false true [] 0;
          Item (KTrans false 2) true true false true [0] 1;
          Item KOp true true true true [1] 2;
          Item KOp false false true true [2] 3].
  exists [ILoad 0 0; IAlloc 1 1; ITrans 1 0 1; IAlloc 2 2; IFlush], 2, [1], 2, [], 3, [2], 3, [].
  do 2 eexists. cbn. repeat split; auto.
Qed.
Print Assumptions C121_operation_refuted.

(** x is loaded, brought to the card, multiplied there with itself and brought back for an
    operation on the host. *)
Definition tripItems : list item :=
  [Item KArg false false false true [] 0;
   Item (KTrans false 2) true true false true [0] 10;
   Item KOp true true true true [10; 10] 11;
   Item (KTrans true 4) true true false true [11] 1;
   Item KOp false false true true [1; 0] 2].
Example C121_ex :
  gen tripItems =
    [ILoad 0 0; IAlloc 1 10; ITrans 1 0 10; IAlloc 2 11; IFlush; IExec 2 [10; 10] 11;
     IAlloc 3 1; ITrans 3 11 1; IFlush; IExec 4 [1; 0] 2] /\
  wantedBy tripItems 1 2 /\ wantedBy tripItems 3 4 /\ transportAt tripItems 3 true 4.
Proof.
  split; [reflexivity|]. split; [|split].
  - split; [lia|]. split; [|intros m H; lia]. eexists. split; [reflexivity|]. do 2 (split; [reflexivity|]).
    eexists. split; [reflexivity|]. split; [left; reflexivity|intros; lia].
  - split; [lia|]. split; [|intros m H; lia]. eexists. split; [reflexivity|]. do 2 (split; [reflexivity|]).
    eexists. split; [reflexivity|]. split; [left; reflexivity|intros; lia].
  - eexists. split; reflexivity.
Qed.
