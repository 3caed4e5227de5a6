(** Coordinates, inner products and what it means for a gradient operator of a linear map
    to be right; written without the model's helpers apart from the type of tensors. *)
From Coq Require Import List ZArith Bool.
From Verif Require Import Sums BroadcastModel.
Import ListNotations.
Local Open Scope Z_scope.

(** All coordinates of a shape. *)
Fixpoint coords (s : list Z) : list (list Z) :=
  match s with
  | [] => [[]]
  | d :: s' => flat_map (fun i => map (cons (Z.of_nat i)) (coords s')) (seq 0 (Z.to_nat d))
  end.
Section Spec.
Context {A : Type} {CR : CRing A}.
(** Inner product of two functions on the coordinates of a shape. *)
Definition ip (s : list Z) (f g : list Z -> A) : A := lsum (map (fun idx => rmul (f idx) (g idx)) (coords s)).
(** [gx] is what the gradient [g] of a linear map's value [y] at [x] must be handed on as:
    the adjoint of the map. For a map that is linear this is the gradient of [ip y g]. *)
Definition pulled_back (x y g gx : @tens A) : Prop :=
  shp gx = shp x /\ ip (shp y) (at_ y) (at_ g) = ip (shp x) (at_ x) (at_ gx).
(** The same for a list of inputs. *)
Fixpoint ips (xs gs : list (@tens A)) : A :=
  match xs, gs with x :: xs', g :: gs' => radd (ip (shp x) (at_ x) (at_ g)) (ips xs' gs') | _, _ => r0 end.
Definition pulled_back_all (xs : list (@tens A)) (y g : @tens A) (gxs : list (@tens A)) : Prop :=
  map (@shp A) gxs = map (@shp A) xs /\ ip (shp y) (at_ y) (at_ g) = ips xs gxs.
(** Equal shapes and equal entries. *)
Definition same (t u : @tens A) : Prop :=
  shp t = shp u /\ forall idx, In idx (coords (shp t)) -> at_ t idx = at_ u idx.
End Spec.
(** A permutation of the axes of a shape with [n] axes. *)
Definition is_perm (p : list Z) (n : nat) : Prop :=
  length p = n /\ NoDup p /\ Forall (fun a => 0 <= a < Z.of_nat n) p.
(** Read a list through axes. *)
Definition gather (p l : list Z) : list Z := map (fun a => nth (Z.to_nat a) l 0) p.
(** NumPy's basic slicing: a full slice keeps the axis, [st:en] cuts it, width one drops
    it (an axis past the list of slices is kept). *)
Fixpoint cut (slices : list (option (Z * Z))) (s : list Z) : list Z :=
  match slices, s with
  | None :: r, d :: s' => d :: cut r s'
  | Some (st, en) :: r, d :: s' => if en - st =? 1 then cut r s' else en - st :: cut r s'
  | [], s => s
  | _, [] => []
  end.
(** The coordinate of the input read for a coordinate of the result. *)
Fixpoint readAt (slices : list (option (Z * Z))) (idx : list Z) : list Z :=
  match slices with
  | [] => idx
  | Some (st, en) :: r =>
      if en - st =? 1 then st :: readAt r idx
      else match idx with i :: idx' => i + st :: readAt r idx' | [] => [] end
  | None :: r => match idx with i :: idx' => i :: readAt r idx' | [] => [] end
  end.
(** The slices lie within the shape. *)
Fixpoint fits (slices : list (option (Z * Z))) (s : list Z) : Prop :=
  match slices, s with
  | [], _ => True
  | _, [] => False
  | None :: r, _ :: s' => fits r s'
  | Some (st, en) :: r, d :: s' => 0 <= st < en /\ en <= d /\ fits r s'
  end.
(** The values [ts] lie side by side in [y] along axis [k], the first one at [start] and
    the last one ending where the axis ends. *)
Fixpoint placed {A : Type} (k : nat) (start : Z) (ts : list (@tens A)) (y : @tens A) : Prop :=
  match ts with
  | [] => nth k (shp y) 0 = start
  | t :: ts' =>
      (forall p i r, length p = k -> In (p ++ i :: r) (coords (shp t)) -> at_ y (p ++ i + start :: r) = at_ t (p ++ i :: r)) /\
      placed k (start + nth k (shp t) 0) ts' y
  end.
