(** Independent specification for C16 and C41. *)
From Coq Require Import Arith List Bool.
From Verif Require Import Sums MatModel.
Import ListNotations.

Section Spec.
Context {A : Type} {CR : CRing A}.
Local Open Scope cr_scope.

Definition same_size (a b : mat A) : Prop := rows a = rows b /\ cols a = cols b.

(** Element (i,k) of a matrix or of its transpose. *)
Definition op_el (t : bool) (m : mat A) (i k : nat) : A := if t then el m k i else el m i k.
Definition op_rows (t : bool) (m : mat A) := if t then cols m else rows m.
Definition op_cols (t : bool) (m : mat A) := if t then rows m else cols m.

(** [z] is the product of [x] and [y], each possibly transposed. *)
Definition is_product (tx ty : bool) (x y z : mat A) : Prop :=
  op_cols tx x = op_rows ty y /\
  rows z = op_rows tx x /\ cols z = op_cols ty y /\
  forall i j, i < rows z -> j < cols z ->
    el z i j = sum (op_cols tx x) (fun k => op_el tx x i k * op_el ty y k j).

(** [z] is the product of [x] (possibly transposed) with the vector [v]. *)
Definition is_matvec (tx : bool) (x : mat A) (v z : vec A) : Prop :=
  op_cols tx x = len v /\ len z = op_rows tx x /\
  forall i, i < len z -> vel z i = sum (len v) (fun k => op_el tx x i k * vel v k).

(** Inner products of matrices and vectors. *)
Definition dotM (a b : mat A) : A :=
  sum (rows a) (fun i => sum (cols a) (fun j => el a i j * el b i j)).
Definition dotV (a b : vec A) : A := sum (len a) (fun i => vel a i * vel b i).
End Spec.

(** Row-major (lexicographic) enumeration of the index tuples of a shape. *)
Fixpoint tuples (shp : list nat) : list (list nat) :=
  match shp with
  | [] => [[]]
  | d :: r => flat_map (fun i => map (cons i) (tuples r)) (seq 0 d)
  end.

(** An index tuple of a shape. *)
Definition in_shape (ix shp : list nat) : Prop := Forall2 (fun i d => i < d) ix shp.

Section BSpec.
Context {A : Type} {CR : CRing A}.

Definition same_bsize (a b : bmat A) : Prop :=
  outer a = outer b /\ brows a = brows b /\ bcols a = bcols b.

(** [z] holds, at every outer index tuple, the product of the slices. *)
Definition is_bproduct (tx ty : bool) (x y z : bmat A) : Prop :=
  outer y = outer x /\ outer z = outer x /\
  forall ix, in_shape ix (outer x) ->
    is_product tx ty (slice x ix) (slice y ix) (slice z ix).

(** Inner product of batched matrices. *)
Definition dotB (a b : bmat A) : A :=
  lsum (map (fun ix => dotM (slice a ix) (slice b ix)) (tuples (outer a))).
End BSpec.

Definition positive (shp : list nat) : Prop := Forall (fun d => 0 < d) shp.
