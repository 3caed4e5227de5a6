(** What the initialisers of weights promise (weights.go:24-520), apart from the model's
    functions. *)
From Coq Require Import List Arith Reals.
From Verif Require Import WeightModel.
Import ListNotations.
Local Open Scope R_scope.

(** Number of entries of a shape. *)
Fixpoint prodN (s : list nat) : nat := match s with [] => 1%nat | d :: s' => (d * prodN s')%nat end.
(** Inputs that reach an output and outputs that an input reaches, in Glorot et al.: a vector
    is a column; a kernel is (outputs, inputs, window...). *)
Definition glorotFans (s : list nat) : option (nat * nat) :=
  match s with
  | [] => None
  | [n] => Some (1%nat, n)
  | o :: i :: window => Some ((i * prodN window)%nat, (o * prodN window)%nat)
  end.
(** Inputs that reach an output, in He et al.: a matrix is (inputs, outputs), a kernel
    (outputs, inputs, window...). *)
Definition heFan (s : list nat) : option nat :=
  match s with
  | [i; _] => Some i
  | _ :: (_ :: _ :: _) as rest => Some (prodN (tl s))
  | _ => None
  end.
(** Whether a number can be put into a tensor of the dtype (weights.go:60-125). *)
Definition fits (dt : wtype) (x : iface) : Prop :=
  match dt, x with
  | W64, (IF64 _ | IInt _) | W32, (IF64 _ | IF32 _ | IInt _) | WInt, IInt _ => True
  | _, _ => False
  end.
(** The same without any conversion (weights.go:135-160). *)
Definition fitsExactly (dt : wtype) (x : iface) : Prop :=
  match dt, x with W64, IF64 _ | W32, IF32 _ | WInt, IInt _ => True | _, _ => False end.
(** The number an argument stands for; a Float32 tensor converts all but float32 numbers. *)
Definition meant (rnd : R -> R) (dt : wtype) (x : iface) : R :=
  let r := match x with IF64 r | IF32 r => r | IInt z => IZR z | IOther => 0 end in
  match dt, x with W32, IF32 _ => r | W32, _ => rnd r | _, _ => r end.
(** When an initialiser gives weights at all. *)
Definition supported (rnd : R -> R) (w : initW) (dt : wtype) (s : list nat) : Prop :=
  match w with
  | Zeroes | Ones | RangedFrom _ => True
  | RangedFromWithStep a b => fits dt a /\ fits dt b
  | ValuesOf v => fitsExactly dt v
  | Gaussian _ _ => dt = W64 \/ dt = W32
  | Uniform lo hi => (dt = W64 /\ (prodN s = 0%nat \/ lo < hi)) \/ (dt = W32 /\ (prodN s = 0%nat \/ rnd lo < rnd hi))
  | GlorotN _ => (dt = W64 \/ dt = W32) /\ s <> []
  | GlorotU gain => s <> [] /\ ((dt = W64 /\ (prodN s = 0%nat \/ 0 < gain)) \/ dt = W32)
  | HeN _ => dt = W64 /\ (2 <= length s)%nat
  | HeU gain => dt = W64 /\ (2 <= length s)%nat /\ (prodN s = 0%nat \/ 0 < gain)
  end.
