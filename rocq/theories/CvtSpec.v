(** What a conversion of dtypes should be. *)
From Coq Require Import List Arith ZArith QArith Qabs.
From Verif Require Import CvtModel.
Import ListNotations.

(** A rational with its fraction dropped: towards zero. *)
Definition dropsFraction (x : Q) (z : Z) : Prop :=
  (Qabs (inject_Z z) <= Qabs x /\ Qabs x < Qabs (inject_Z z) + 1 /\ 0 <= inject_Z z * x)%Q.
(** Go's conversions where the language says what they give. *)
Record goConversions (toInt : Q -> Z) (toF64 toF32 : Z -> Q) : Prop := {
  gc_int : forall x, (Qabs x < inject_Z (2 ^ 63))%Q -> dropsFraction x (toInt x);
  gc_f64 : forall z, (Z.abs z <= 2 ^ 53)%Z -> (toF64 z == inject_Z z)%Q;
  gc_f32 : forall z, (Z.abs z <= 2 ^ 24)%Z -> (toF32 z == inject_Z z)%Q
}.
(** A value of a dtype and shape; more than no axes. *)
Definition holdsInts (v : cvVal) (s : list nat) (l : list Z) : Prop :=
  cvShape v = s /\ cvOf v = DInts l /\ length l = fold_right Nat.mul 1%nat s.
Definition holdsF64 (v : cvVal) (s : list nat) (l : list Q) : Prop :=
  cvShape v = s /\ cvOf v = DF64s l /\ length l = fold_right Nat.mul 1%nat s.
Definition holdsF32 (v : cvVal) (s : list nat) (l : list Q) : Prop :=
  cvShape v = s /\ cvOf v = DF32s l /\ length l = fold_right Nat.mul 1%nat s.
