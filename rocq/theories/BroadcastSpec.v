(** What broadcasting, reshaping and patterns should do; written without the model's
    helpers apart from its types. *)
From Coq Require Import List ZArith Bool.
Import ListNotations.
Local Open Scope Z_scope.

(** Coordinates within a shape. *)
Definition inside (s idx : list Z) : Prop := Forall2 (fun d i => 0 <= i < d) s idx.
(** NumPy's rule for equally many axes: each axis equal, or one of them of size one. *)
Definition compatible (s t : list Z) : Prop := Forall2 (fun x y => x = y \/ x = 1 \/ y = 1) s t.
(** The common shape and the coordinate read in an operand of shape [s]. *)
Definition common (s t : list Z) : list Z := map (fun p => Z.max (fst p) (snd p)) (combine s t).
Definition clampTo (s idx : list Z) : list Z := map (fun p => if fst p =? 1 then 0 else snd p) (combine s idx).
(** Every axis has a positive size. *)
Definition positive (s : list Z) : Prop := Forall (fun d => 1 <= d) s.
(** Elements of a list at the positions (counted from [i]) that are not, or are, in [axes]. *)
Fixpoint without (axes : list Z) (i : Z) (l : list Z) : list Z :=
  match l with [] => [] | x :: l' => if existsb (Z.eqb i) axes then without axes (i + 1) l' else x :: without axes (i + 1) l' end.
(** The shape that has [b]'s size on the axes and [s]'s sizes, in order, elsewhere: *)
Definition stretched (s b : list Z) (axes : list Z) (out : list Z) : Prop :=
  length out = length b /\ without axes 0 out = s /\
  forall i, In i axes -> 0 <= i < Z.of_nat (length b) -> nth (Z.to_nat i) out 0 = nth (Z.to_nat i) b 0.
(** Product of the dimensions. *)
Fixpoint product (s : list Z) : Z := match s with [] => 1 | d :: s' => d * product s' end.
(** [r] answers the request [to]: as many dimensions, all non-negative ones kept, the
    negative ones replaced by something that is not negative. *)
Definition answers (to r : list Z) : Prop := Forall2 (fun t d => (0 <= t -> d = t) /\ (t < 0 -> 0 <= d)) to r.
Definition wildcards (to : list Z) : nat := length (filter (fun t => t <? 0) to).
