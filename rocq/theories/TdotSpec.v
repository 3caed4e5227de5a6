(** What a contraction of two tensors is; written without the model's helpers apart from
    the type of tensors. *)
From Coq Require Import List ZArith Bool.
From Verif Require Import Sums BroadcastModel BroadcastSpec ShapeGradSpec.
Import ListNotations.
Local Open Scope Z_scope.

(** The axes pair up: none twice, all in range, the same sizes. *)
Definition pairable (aAxes sa bAxes sb : list Z) : Prop :=
  NoDup aAxes /\ NoDup bAxes /\
  Forall (fun x => 0 <= x < Z.of_nat (length sa)) aAxes /\
  Forall (fun x => 0 <= x < Z.of_nat (length sb)) bAxes /\
  gather aAxes sa = gather bAxes sb.
(** The remaining axes: those of the first operand, then those of the second. *)
Definition remaining (aAxes la bAxes lb : list Z) : list Z := without aAxes 0 la ++ without bAxes 0 lb.
(** No axis of size one (or smaller). *)
Definition no_unit (s : list Z) : Prop := Forall (fun d => 2 <= d) s.
(** The coordinate that has [k] along the axes and [f], in order, elsewhere. Positions are
    counted from [p]. *)
Fixpoint placed (axes k : list Z) (p : Z) (n : nat) (f : list Z) : list Z :=
  match n with
  | O => []
  | S n' =>
      match find (fun q => fst q =? p) (combine axes k) with
      | Some q => snd q :: placed axes k (p + 1) n' f
      | None => match f with x :: f' => x :: placed axes k (p + 1) n' f' | [] => [] end
      end
  end.
Section Spec.
Context {A : Type} {CR : CRing A}.
(** The entry of the contraction at the coordinates [fa] of the first and [fb] of the
    second operand: the sum over the coordinates along the axes. *)
Definition dot (aAxes bAxes : list Z) (a b : @tens A) (fa fb : list Z) : A :=
  lsum (map (fun k => rmul (at_ a (placed aAxes k 0 (length (shp a)) fa))
                           (at_ b (placed bAxes k 0 (length (shp b)) fb)))
            (coords (gather aAxes (shp a)))).
End Spec.
