(** Property theorems C16 and C41. *)
From Coq Require Import Arith Lia List Bool ZArith.
From Verif Require Import Sums MatModel MatSpec MatProofs.
Import ListNotations.

(** ** C16 *)

(** Matrix product, all four transpose combinations: the two gradients exist,
    have the operands' sizes, and are adjoint to perturbing either operand. *)
Theorem C16_matmul_adjoint :
  forall (A : Type) (CR : CRing A) (ta tb : bool) (x y z g : mat A),
    is_product ta tb x y z -> same_size g z ->
    exists gx gy,
      matMulDiffExpr ta tb x y g = (Some gx, Some gy) /\
      same_size gx x /\ same_size gy y /\
      (forall dx z', same_size dx x -> is_product ta tb dx y z' -> dotM z' g = dotM dx gx) /\
      (forall dy z', same_size dy y -> is_product ta tb x dy z' -> dotM z' g = dotM dy gy).
Proof. exact @matmul_adjoint. Qed.
Print Assumptions C16_matmul_adjoint.

(** The forward operator computes the product (so the hypothesis above is what
    running the graph gives). *)
Theorem C16_matmul_forward :
  forall (A : Type) (CR : CRing A) (ta tb : bool) (x y : mat A),
    (forall z, matMul ta tb x y = Some z -> is_product ta tb x y z) /\
    (op_cols ta x = op_rows tb y -> exists z, matMul ta tb x y = Some z).
Proof.
  intros A CR ta tb x y. split; [exact (matMul_product ta tb x y)|].
  intro H. destruct (matMul_some ta tb x y H) as [z [Hz _]]. exists z; exact Hz.
Qed.
Print Assumptions C16_matmul_forward.

(** The automatic rule adds the same two matrices to the stored gradients. *)
Theorem C16_matmul_automatic :
  forall (A : Type) (CR : CRing A) (ta tb : bool) (x y xd yd g gx gy : mat A),
    matMulDiffExpr ta tb x y g = (Some gx, Some gy) ->
    matMulDiff ta tb x y xd yd g = (Some (addMat xd gx), Some (addMat yd gy)).
Proof. intros A CR ta tb x y. exact (matmul_auto ta tb x y x). Qed.
Print Assumptions C16_matmul_automatic.

Theorem C16_matvec_adjoint :
  forall (A : Type) (CR : CRing A) (ta : bool) (x : mat A) (y z g : vec A),
    is_matvec ta x y z -> len g = len z ->
    exists gy,
      let gx := fst (matVecMulDiffExpr ta x y g) in
      snd (matVecMulDiffExpr ta x y g) = Some gy /\
      same_size gx x /\ len gy = len y /\
      (forall dx z', same_size dx x -> is_matvec ta dx y z' -> dotV z' g = dotM dx gx) /\
      (forall dy z', len dy = len y -> is_matvec ta x dy z' -> dotV z' g = dotV dy gy).
Proof. exact @matvec_adjoint. Qed.
Print Assumptions C16_matvec_adjoint.

Theorem C16_vecdot_adjoint :
  forall (A : Type) (CR : CRing A) (x y : vec A) (g : A),
    len x = len y ->
    let (gx, gy) := vecDotDiffExpr x y g in
    len gx = len x /\ len gy = len y /\
    (forall dx, len dx = len x -> rmul (dotV dx y) g = dotV dx gx) /\
    (forall dy, len dy = len y -> rmul (dotV x dy) g = dotV dy gy).
Proof. exact @vecdot_adjoint. Qed.
Print Assumptions C16_vecdot_adjoint.

(** The outer product's rule is wrong for every length in every ring with
    1 <> 0 … *)
Theorem C16_outer_refuted :
  forall (A : Type) (CR : CRing A) (n : nat),
    (r1 : A) <> r0 -> 0 < n ->
    exists (x y dx : vec A) (g : mat A) (gx : vec A),
      len x = n /\ len y = n /\ len dx = n /\ rows g = n /\ cols g = n /\
      fst (outerProdDiffExpr x y g) = Some gx /\
      dotM (outerKernel dx y) g <> dotV dx gx.
Proof. exact @outer_wrong. Qed.
Print Assumptions C16_outer_refuted.

(** … and building the gradient fails whenever the lengths differ. *)
Theorem C16_outer_nonsquare_refuted :
  forall (A : Type) (CR : CRing A) (x y : vec A) (g : mat A),
    rows g = len x -> cols g = len y -> len x <> len y ->
    snd (outerProdDiffExpr x y g) = None.
Proof. exact @outer_nonsquare. Qed.
Print Assumptions C16_outer_nonsquare_refuted.

(** Batched product: gradients adjoint, for every outer shape without zero
    sizes; [c0] is whatever the freshly made result holds at first. *)
Theorem C16_batched_adjoint :
  forall (A : Type) (CR : CRing A) (fuel : nat) (ta tb : bool)
         (c0 : list nat -> nat -> nat -> A) (x y z g : bmat A),
    positive (outer x) -> fold_right Nat.mul 1 (outer x) <= fuel ->
    is_bproduct ta tb x y z -> same_bsize g z ->
    exists gx gy,
      batchedMatMulDiffExpr fuel ta tb c0 x y g = (Some gx, Some gy) /\
      same_bsize gx x /\ same_bsize gy y /\
      (forall dx z', same_bsize dx x -> is_bproduct ta tb dx y z' -> dotB z' g = dotB dx gx) /\
      (forall dy z', same_bsize dy y -> is_bproduct ta tb x dy z' -> dotB z' g = dotB dy gy).
Proof. exact @batched_adjoint. Qed.
Print Assumptions C16_batched_adjoint.

(** Concrete case: 2x3 times (2x3 transposed), over the integers. *)
Definition exX : mat Z := {| rows := 2; cols := 3; el := fun i j => Z.of_nat (3 * i + j) |}.
Definition exY : mat Z := {| rows := 2; cols := 3; el := fun i j => Z.of_nat (i + 2 * j + 1) |}.
Definition exG : mat Z := {| rows := 2; cols := 2; el := fun i j => Z.of_nat (1 + i * j) |}.

Example C16_case :
  exists z, matMul false true exX exY = Some z /\ is_product false true exX exY z /\
            same_size exG z /\ el z 1 0 = 40%Z /\
            option_map (fun m => el m 1 2) (fst (matMulDiffExpr false true exX exY exG)) = Some 17%Z.
Proof.
  destruct (matMul_some false true exX exY eq_refl) as [z [H1 H2]].
  exists z. split; [exact H1|]. split; [exact H2|].
  injection H1 as <-. split; [split; reflexivity|]. split; reflexivity.
Qed.

Example C16_batched_case :
  let x := {| outer := [2; 2]; brows := 1; bcols := 2;
              bel := fun ix i j => Z.of_nat (hd 0 ix + j) |} in
  positive (outer x) /\
  exists z, batchedMatMul 4 false true (fun _ _ _ => 9%Z) x x = Some z /\
            is_bproduct false true x x z /\ bel z [1; 1] 0 0 = 5%Z.
Proof.
  split; [repeat constructor|].
  eexists. split; [reflexivity|]. split; [|reflexivity].
  destruct (batched_ok 4 false true (fun _ _ _ => 9%Z)
     {| outer := [2; 2]; brows := 1; bcols := 2;
        bel := fun ix i j => Z.of_nat (hd 0 ix + j) |}
     {| outer := [2; 2]; brows := 1; bcols := 2;
        bel := fun ix i j => Z.of_nat (hd 0 ix + j) |}) as [z [H1 [H2 _]]];
    [repeat constructor|simpl; lia|reflexivity|reflexivity|].
  injection H1 as <-. exact H2.
Qed.

(** ** C41 *)

(** The loop visits the index tuples of the outer shape in lexicographic order,
    each exactly once, and stops. *)
Theorem C41_batches_visited_once :
  forall (fuel : nat) (shp : list nat),
    positive shp -> fold_right Nat.mul 1 shp <= fuel ->
    exists l, batchVisit fuel shp = Some l /\ l = tuples shp /\ NoDup l /\
              (forall ix, In ix l <-> in_shape ix shp).
Proof. exact batched_visits_exactly_once. Qed.
Print Assumptions C41_batches_visited_once.

(** Hence batched multiplication is multiplication slice by slice. *)
Theorem C41_batched_product :
  forall (A : Type) (CR : CRing A) (fuel : nat) (ta tb : bool)
         (c0 : list nat -> nat -> nat -> A) (a b : bmat A),
    positive (outer a) -> fold_right Nat.mul 1 (outer a) <= fuel ->
    outer b = outer a ->
    op_cols ta (slice a []) = op_rows tb (slice b []) ->
    exists z, batchedMatMul fuel ta tb c0 a b = Some z /\ is_bproduct ta tb a b z /\
      brows z = (if ta then bcols a else brows a) /\
      bcols z = (if tb then brows b else bcols b).
Proof. exact @batched_ok. Qed.
Print Assumptions C41_batched_product.

Example C41_case :
  positive [2; 1; 2] /\
  batchVisit 4 [2; 1; 2] = Some [[0;0;0]; [0;0;1]; [1;0;0]; [1;0;1]].
Proof. split; [repeat constructor|reflexivity]. Qed.
