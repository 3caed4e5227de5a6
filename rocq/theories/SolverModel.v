(** Model of the solvers (solvers.go, solvers_utils.go): options, caches and the Step of
    every solver on a memory of scalars and dense tensors.  No proofs in this file.

    Simplified: float32 and float64 arithmetic is exact arithmetic in R (and the two
    number types are one); a dense tensor is the list of its entries, so operands of
    different sizes are the only errors of the tensor package; log calls and the return of
    temporary tensors to the pool are left out.  The tensor package is not in the
    repository: [op1], [op2] and [mode] say what is assumed of it. *)
From Coq Require Import Reals List Bool Arith.
Import ListNotations.

(** A Value: *F32/*F64, or *tensor.Dense.  Values are pointers: cells of a memory.
    (values.go, values_primitives.go.) *)
Inductive cell := Sc (x : R) | Dn (l : list R).
(** The memory Values point into (values.go); no counterpart of its own. *)
Record heap := Heap { cells : nat -> option cell; nextp : nat }.
(** Writing through such a pointer (e.g. solvers.go:890-893). *)
Definition set (h : heap) (p : nat) (c : cell) : heap := Heap (fun q => if Nat.eqb q p then Some c else cells h q) (nextp h).
(** Making a new Value (values_utils.go:92-116). *)
Definition allocate (h : heap) (c : cell) : heap := Heap (fun q => if Nat.eqb q (nextp h) then Some c else cells h q) (S (nextp h)).

(** A computation ends with a result, with an error (what was written stays written), or
    in a panic. (solvers.go: the Step methods return error values.) *)
Inductive res (A : Type) := Ok (a : A) (h : heap) | Err (h : heap) | Panic.
Arguments Ok {A}. Arguments Err {A}. Arguments Panic {A}.
(** Sequencing with [if err != nil] (solvers.go, throughout). *)
Definition bind {A B} (m : heap -> res A) (f : A -> heap -> res B) : heap -> res B :=
  fun h => match m h with Ok a h' => f a h' | Err h' => Err h' | Panic => Panic end.
(** Going on with a value (solvers.go, throughout). *)
Definition ret {A} (a : A) : heap -> res A := fun h => Ok a h.
Notation "'do' x <- e ; k" := (bind e (fun x => k)) (at level 60, x name, e at level 59, right associativity).
(** A call whose error is not looked at (solvers.go:322-324, 1239). *)
Definition ignore {A} (m : heap -> res A) : heap -> res unit :=
  fun h => match m h with Ok _ h' => Ok tt h' | Err h' => Ok tt h' | Panic => Panic end.

(** Type assertions to *tensor.Dense and to *F32/*F64 with the value; they panic.
    (E.g. solvers.go:808, 1017.) *)
Definition dense (p : nat) : heap -> res (list R) := fun h => match cells h p with Some (Dn l) => Ok l h | _ => Panic end.
(** The same to *F32 or *F64 (e.g. solvers.go:866, 908). *)
Definition scalar (p : nat) : heap -> res R := fun h => match cells h p with Some (Sc x) => Ok x h | _ => Panic end.
(** Writing through a pointer (e.g. solvers.go:890-893). *)
Definition write (p : nat) (c : cell) : heap -> res unit := fun h => Ok tt (set h p c).
(** A new Value (values_utils.go:92-116). *)
Definition new (c : cell) : heap -> res nat := fun h => Ok (nextp h) (allocate h c).

(** Where an operation of the tensor package puts its result: in a new tensor, in its
    (first) tensor operand ([UseUnsafe]), added to a tensor ([WithIncr], with or without
    [UseUnsafe]), over a tensor ([WithReuse]).
    (library; the options given e.g. at solvers.go:808-846.) *)
Inductive mode := Safe | Unsafe | Incr (p : nat) | Reuse (p : nat).
(** Entry by entry on two tensors of one size (tensor library). *)
Definition map2 (f : R -> R -> R) (a b : list R) : list R := map (fun xy => f (fst xy) (snd xy)) (combine a b).
(** Putting a result where the options say (tensor library). *)
Definition store (t : nat) (l : list R) (m : mode) : heap -> res nat :=
  match m with
  | Safe => new (Dn l)
  | Unsafe => do _ <- write t (Dn l); ret t
  | Incr p => do old <- dense p;
      if Nat.eqb (length old) (length l) then do _ <- write p (Dn (map2 Rplus old l)); ret p else (fun h => Err h)
  | Reuse p => do old <- dense p;
      if Nat.eqb (length old) (length l) then do _ <- write p (Dn l); ret p else (fun h => Err h)
  end.
(** One tensor operand, entry by entry: Sign, Square, Sqrt, InvSqrt, Clamp, and Mul, Add,
    Div with a number. (tensor library, called e.g. at solvers.go:808-846.) *)
Definition op1 (f : R -> R) (t : nat) (m : mode) : heap -> res nat := do l <- dense t; store t (map f l) m.
(** Two tensor operands, entry by entry. (tensor library, called e.g. at solvers.go:808-846.) *)
Definition op2 (f : R -> R -> R) (a b : nat) (m : mode) : heap -> res nat :=
  do x <- dense a; do y <- dense b;
  if Nat.eqb (length x) (length y) then store a (map2 f x y) m else (fun h => Err h).
(** tensor.Dense.Zero (library, called e.g. at solvers.go:861). *)
Definition zeroT (t : nat) : heap -> res unit := do l <- dense t; write t (Dn (map (fun _ => 0%R) l)).
(** tensor.Dense.Clone (library, called by CloneValue, values_utils.go:92-116). *)
Definition cloneT (t : nat) : heap -> res nat := do l <- dense t; new (Dn l).

(** Go's < on numbers (solvers.go, throughout). *)
Definition Rltb (x y : R) : bool := if Rlt_dec x y then true else false.
(** tensor.Sign and tensor.Clamp on a number. (library, called at solvers.go:808-820.) *)
Definition signT (x : R) : R := if Rltb x 0 then (-1)%R else if Rltb 0 x then 1%R else 0%R.
(** tensor.Clamp on a number (library, called e.g. at solvers.go:838-846). *)
Definition clamp (lo hi x : R) : R := if Rltb x lo then lo else if Rltb hi x then hi else x.
(** tensor.InvSqrt on a number (library, called at solvers.go:1203-1290). *)
Definition invSqrt (x : R) : R := (/ sqrt x)%R.

(** The fields of the solver structs (240-252, 420-437, 755-763, 946-957, 1175-1185,
    1384-1389, 1559-1576): one record for all, a field a struct lacks stays 0/false.
    [decay] is RMSProp's decay and AdamW's lambda. (All in solvers.go.) *)
Record params := P { eta : R; eps : R; beta1 : R; beta2 : R; decay : R; momentum : R; clip : R; l1reg : R; l2reg : R; batch : R;
  useClip : bool; useL1Reg : bool; useL2Reg : bool }.
(** The solvers of solvers.go: lines 240, 420, 755, 946, 1175, 1384, 1559. *)
Inductive kind := RMSProp | Adam | Vanilla | Momentum | AdaGrad | BarzilaiBorwein | AdamW.
(** The options of solvers.go:64-236. *)
Inductive opt := WithL2Reg (x : R) | WithL1Reg (x : R) | WithBatchSize (x : R) | WithEps (x : R) | WithClip (x : R)
  | WithLearnRate (x : R) | WithBeta1 (x : R) | WithBeta2 (x : R) | WithRho (x : R) | WithMomentum (x : R).
(** solvers.go:64-236, the type switches. *)
Definition applyOpt (k : kind) (p : params) (o : opt) : params :=
  let '(P e ep b1 b2 d m c l1 l2 b uc u1 u2) := p in
  match o, k with
  | WithL2Reg x, (RMSProp | Adam | Vanilla | Momentum | AdamW) => P e ep b1 b2 d m c l1 x b uc u1 true
  | WithL1Reg x, (Adam | Vanilla | Momentum | AdamW) => P e ep b1 b2 d m c x l2 b uc true u2
  | WithBatchSize x, (Adam | Vanilla | Momentum | AdamW) => P e ep b1 b2 d m c l1 l2 x uc u1 u2
  | WithEps x, (RMSProp | Adam | AdamW) => P e x b1 b2 d m c l1 l2 b uc u1 u2
  | WithClip x, (RMSProp | Adam | Vanilla | BarzilaiBorwein | Momentum | AdamW) => P e ep b1 b2 d m x l1 l2 b true u1 u2
  | WithLearnRate x, (RMSProp | Adam | Vanilla | BarzilaiBorwein | Momentum | AdamW) => P x ep b1 b2 d m c l1 l2 b uc u1 u2
  | WithBeta1 x, (Adam | AdamW) => P e ep x b2 d m c l1 l2 b uc u1 u2
  | WithBeta2 x, (Adam | AdamW) => P e ep b1 x d m c l1 l2 b uc u1 u2
  | WithRho x, (RMSProp | AdamW) => P e ep b1 b2 x m c l1 l2 b uc u1 u2
  | WithMomentum x, Momentum => P e ep b1 b2 d x c l1 l2 b uc u1 u2
  | _, _ => p
  end.
(** The literal 1e-3 (solvers.go:257-268 and others). *)
Definition em3 : R := (/ 1000)%R.
(** The literal 1e-8 (solvers.go:257-268 and others). *)
Definition em8 : R := (/ 100000000)%R.
(** solvers.go:257-268 443-456 766-775 960-970 1188-1198 1393-1403 1578-1591: the defaults. *)
Definition defaults (k : kind) : params :=
  match k with
  | RMSProp => P em3 em8 0 0 (999 / 1000) 0 0 0 0 0 false false false
  | Adam => P em3 em8 (9 / 10) (999 / 1000) 0 0 0 0 0 1 false false false
  | Vanilla => P em3 0 0 0 0 0 0 0 0 1 false false false
  | Momentum => P em3 0 0 0 0 (9 / 10) 0 0 0 1 false false false
  | AdaGrad => P em3 em8 0 0 0 0 0 0 0 0 false false false
  | BarzilaiBorwein => P em3 0 0 0 0 0 0 0 0 0 false false false
  | AdamW => P em3 em8 (9 / 10) (999 / 1000) (1 / 100) 0 0 0 0 0 false false false
  end%R.
(** The New functions at the lines of [defaults] in solvers.go: the defaults, then the options
    in order. *)
Definition newSolver (k : kind) (opts : list opt) : params := fold_left (applyOpt k) opts (defaults k).

(** A ValueGrad: an identity (AdamW's map is keyed by it), the value, the gradient or none.
    (solvers.go:49-58; interfaces.go.) *)
Record node := Nd { nid : nat; weights : nat; grad : option nat }.
(** solvers.go:49-58 [extractWeightGrad]. *)
Definition extractWeightGrad (n : node) : heap -> res (nat * nat) :=
  match grad n with Some g => ret (weights n, g) | None => fun h => Err h end.

(** values_utils.go:92-116 [CloneValue]; 135-160 [ZeroValue]; solvers.go:28-47 [newCachedDV]. *)
Definition cloneValue (p : nat) : heap -> res nat := fun h => match cells h p with Some c => new c h | None => Panic end.
(** values_utils.go:135-160 [ZeroValue]. *)
Definition zeroValue (p : nat) : heap -> res nat := fun h =>
  match cells h p with
  | Some (Sc _) => (do _ <- write p (Sc 0%R); ret p) h
  | Some (Dn _) => (do _ <- zeroT p; ret p) h
  | None => Panic
  end.
(** solvers.go:28-47 [newCachedDV]. *)
Definition newCachedDV (w g : nat) (zero : bool) : heap -> res (nat * nat) :=
  do v <- cloneValue w; do d <- cloneValue g;
  if zero then do v' <- zeroValue v; do d' <- zeroValue d; ret (v', d') else ret (v, d).

(** The preparation of the gradient [g], on dense tensors: 808-846 (Vanilla), 1017-1055
    (Momentum, where [r] is the cached value), 517-559 (Adam). (solvers.go.) *)
Definition prepDense (p : params) (r g : nat) : heap -> res unit :=
  do _ <- (if useL1Reg p
           then do l1regs <- op1 signT r Safe;
                do l1regs' <- op1 (fun x => l1reg p * x)%R l1regs Unsafe;
                op2 Rplus g l1regs' Unsafe
           else ret g);
  do _ <- (if useL2Reg p
           then do l2regs <- op1 (fun x => x * l2reg p)%R r Safe;
                op2 Rplus g l2regs Unsafe
           else ret g);
  do _ <- (if Rltb 1 (batch p) then op1 (fun x => x * (1 / batch p))%R g Unsafe else ret g);
  do _ <- (if useClip p && Rltb 0 (clip p) then op1 (clamp (- clip p) (clip p)) g Unsafe else ret g);
  ret tt.
(** The same on scalars: 866-888 and 908-930, 1093-1115 and 1136-1158, 644-666 and 697-719.
    (solvers.go.) *)
Definition clipS (c g : R) : R := if Rltb c g then c else if Rltb g (- c) then (- c)%R else g.
(** The whole preparation of a scalar gradient at the lines of solvers.go given for [clipS]. *)
Definition prepScalar (p : params) (w g : R) : R :=
  let g := (if useL1Reg p then g + (if Rltb w 0 then - l1reg p else l1reg p) else g)%R in
  let g := (if useL2Reg p then g + l2reg p * w else g)%R in
  let g := (if Rltb 1 (batch p) then g * (1 / batch p) else g)%R in
  if useClip p then clipS (clip p) g else g.

(** solvers.go:780-943 [VanillaSolver.Step], for one node. *)
Definition vanillaDense (p : params) (w g : nat) : heap -> res unit :=
  do _ <- dense g;
  do _ <- prepDense p w g;
  do _ <- op1 (fun x => x * - eta p)%R g Unsafe;
  do _ <- op2 Rplus w g Unsafe;
  zeroT g.
(** solvers.go:863-940, a scalar weight. *)
Definition vanillaScalar (p : params) (w g : nat) : heap -> res unit :=
  do gv <- scalar g; do wv <- scalar w;
  let gv := prepScalar p wv gv in
  let upd := (- eta p * gv)%R in
  do _ <- write w (Sc (wv + upd)%R); write g (Sc 0%R).
(** solvers.go:781-941, one node. *)
Definition vanillaNode (p : params) (n : node) : heap -> res unit :=
  do wg <- extractWeightGrad n;
  fun h => match cells h (fst wg) with
           | Some (Dn _) => vanillaDense p (fst wg) (snd wg) h
           | Some (Sc _) => vanillaScalar p (fst wg) (snd wg) h
           | None => Err h
           end.
(** solvers.go:780-943 [VanillaSolver.Step]. *)
Fixpoint vanillaStep (p : params) (model : list node) : heap -> res unit :=
  match model with [] => ret tt | n :: r => do _ <- vanillaNode p n; vanillaStep p r end.

(** The caches of RMSProp, Adam, Momentum, AdaGrad: [None] is the nil slice; per position
    the value and the derivative of a dualValue, or nil.
    (solvers.go:240-252, 420-437, 946-957, 1175-1185.) *)
Definition cache := option (list (option (nat * nat))).
(** s.cache[i] (e.g. solvers.go:978-1005). *)
Definition getCache (c : cache) (i : nat) : option (option (nat * nat)) := match c with Some l => nth_error l i | None => None end.
(** Assignment to an element of a slice (e.g. solvers.go:1004). *)
Fixpoint setNth {A} (l : list A) (i : nat) (x : A) : list A :=
  match l, i with [], _ => [] | _ :: r, O => x :: r | y :: r, S j => y :: setNth r j x end.
(** s.cache[i] = cached (e.g. solvers.go:1004). *)
Definition setCache (c : cache) (i : nat) (x : nat * nat) : cache := match c with Some l => Some (setNth l i (Some x)) | None => None end.

(** What a Step does to one node, given the cached pair: the new cached pair.  The outcome
    of a Step: the cache survives errors. (solvers.go: the Step methods keep s.cache.) *)
Inductive out (S : Type) := Done (s : S) (h : heap) | Fail (s : S) (h : heap) | Crash.
Arguments Done {S}. Arguments Fail {S}. Arguments Crash {S}.
(** The loop over the model common to 278-413, 470-750, 980-1170, 1208-1379: look up the
    cache, make a zeroed copy if there is none (an index beyond the cache panics).
    (solvers.go.) *)
Fixpoint stepLoop (body : node -> nat -> nat -> nat * nat -> heap -> res (nat * nat)) (model : list node) (i : nat) (c : cache) (h : heap) : out cache :=
  match model with
  | [] => Done c h
  | n :: r =>
      match extractWeightGrad n h with
      | Err h1 => Fail c h1
      | Panic => Crash
      | Ok (w, g) h1 =>
          match getCache c i with
          | None => Crash
          | Some e =>
              match (match e with Some cv => Ok cv h1 | None => newCachedDV w g true h1 end) with
              | Err h2 => Fail c h2
              | Panic => Crash
              | Ok cv h2 =>
                  match body n w g cv h2 with
                  | Err h3 => Fail (setCache c i cv) h3
                  | Panic => Crash
                  | Ok cv' h3 => stepLoop body r (S i) (setCache c i cv') h3
                  end
              end
          end
      end
  end.
(** The cache made in the first Step (e.g. solvers.go:976-978). *)
Definition initCache (model : list node) (c : cache) : cache :=
  match c with None => Some (map (fun _ => None) model) | Some _ => c end.

(** solvers.go:975-1172 [Momentum.Step], for one node. *)
Definition momentumNode (p : params) (n : node) (w g : nat) (cv : nat * nat) : heap -> res (nat * nat) := fun h =>
  match cells h (fst cv) with
  | Some (Dn _) =>
      (do _ <- dense w; do _ <- dense g;
       do _ <- prepDense p (fst cv) g;
       do _ <- op1 (fun x => x * - eta p)%R g Unsafe;
       do _ <- op1 (fun x => x * momentum p)%R (fst cv) Unsafe;
       do _ <- op2 Rplus (fst cv) g Unsafe;
       do _ <- op2 Rplus w (fst cv) Unsafe;
       do _ <- zeroT g; ret cv) h
  | Some (Sc c) =>
      (do gv <- scalar g; do wv <- scalar w;
       let gv := prepScalar p wv gv in
       let c' := (c * momentum p - eta p * gv)%R in
       do _ <- write w (Sc (wv + c')%R); do _ <- write g (Sc 0%R); ret cv) h
  | None => Err h
  end.
(** solvers.go:975-1172 [Momentum.Step]. *)
Definition momentumStep (p : params) (model : list node) (c : cache) (h : heap) : out cache :=
  stepLoop (momentumNode p) model 0 (initCache model c) h.

(** solvers.go:1203-1382 [AdaGradSolver.Step], for one node. *)
Definition adagradNode (p : params) (n : node) (w g : nat) (cv : nat * nat) : heap -> res (nat * nat) := fun h =>
  match cells h (fst cv) with
  | Some (Dn _) =>
      (do _ <- dense g;
       do g2 <- op1 (fun x => x * x)%R g Safe;
       do _ <- ignore (op2 Rplus (fst cv) g2 Unsafe);
       do _ <- (if useClip p then op1 (clamp (- clip p) (clip p)) g Unsafe else ret g);
       do upd <- op1 (fun x => x + eps p)%R (fst cv) Safe;
       do _ <- op1 invSqrt upd Unsafe;
       do _ <- op1 (fun x => x * - eta p)%R g Unsafe;
       do _ <- op2 Rmult upd g Unsafe;
       do _ <- (if useL2Reg p then do reg <- op1 (fun x => x * l2reg p)%R w Safe; op2 Rminus upd reg Unsafe else ret upd);
       do _ <- op2 Rplus w upd Unsafe;
       do _ <- zeroT g; ret cv) h
  | Some (Sc c) =>
      (do gv <- scalar g;
       let c' := (c + gv * gv)%R in
       let gv := if useClip p then clipS (clip p) gv else gv in
       do wv <- scalar w;
       let upd := (- eta p * gv / sqrt (c' + eps p))%R in
       let upd := (if useL2Reg p then upd - wv * l2reg p else upd)%R in
       do _ <- write w (Sc (wv + upd)%R); do _ <- write g (Sc 0%R); ret cv) h
  | None => Err h
  end.
(** solvers.go:1203-1382 [AdaGradSolver.Step]. *)
Definition adagradStep (p : params) (model : list node) (c : cache) (h : heap) : out cache :=
  stepLoop (adagradNode p) model 0 (initCache model c) h.

(** solvers.go:273-414 [RMSPropSolver.Step], for one node. *)
Definition rmspropNode (p : params) (n : node) (w g : nat) (cv : nat * nat) : heap -> res (nat * nat) := fun h =>
  match cells h (fst cv) with
  | Some (Dn _) =>
      (do gt2 <- op1 (fun x => x * x)%R g Safe;
       do _ <- ignore (op1 (fun x => x * decay p)%R (fst cv) Unsafe);
       do _ <- ignore (op1 (fun x => x * (1 - decay p))%R gt2 Unsafe);
       do _ <- ignore (op2 Rplus (fst cv) gt2 Unsafe);
       do _ <- (if useClip p then op1 (clamp (- clip p) (clip p)) g Unsafe else ret g);
       do upd <- op1 (fun x => x + eps p)%R (fst cv) Safe;
       do _ <- op1 invSqrt upd Unsafe;
       do _ <- op1 (fun x => x * - eta p)%R g Unsafe;
       do _ <- op2 Rmult upd g Unsafe;
       do _ <- (if useL2Reg p then do reg <- op1 (fun x => x * l2reg p)%R w Safe; op2 Rminus upd reg Unsafe else ret upd);
       do _ <- op2 Rplus w upd Unsafe;
       do _ <- zeroT g; ret cv) h
  | Some (Sc c) =>
      (do gs <- scalar g;
       let c' := (c * decay p + (1 - decay p) * gs * gs)%R in
       do cv' <- new (Sc c');
       do wv <- scalar w;
       let upd := (- eta p * gs / sqrt (c' + eps p) - l2reg p * wv)%R in
       do _ <- write w (Sc (wv + upd)%R); do _ <- write g (Sc 0%R); ret (cv', snd cv)) h
  | None => Ok cv h
  end.
(** solvers.go:273-414 [RMSPropSolver.Step]. *)
Definition rmspropStep (p : params) (model : list node) (c : cache) (h : heap) : out cache :=
  stepLoop (rmspropNode p) model 0 (initCache model c) h.

(** solvers.go:461-752 [AdamSolver.Step], for one node; [it] is the number of the Step. *)
Definition adamNode (p : params) (it : nat) (n : node) (w g : nat) (cv : nat * nat) : heap -> res (nat * nat) := fun h =>
  let correction1 := (1 - beta1 p ^ it)%R in
  let correction2 := (1 - beta2 p ^ it)%R in
  match cells h (fst cv) with
  | Some (Dn _) =>
      (do _ <- dense g; do _ <- dense w; do _ <- dense (snd cv);
       do _ <- prepDense p w g;
       do t1 <- cloneT g;
       do _ <- op1 (fun x => x * (1 - beta1 p))%R t1 Unsafe;
       do _ <- op2 Rmult g g Unsafe;
       do _ <- op1 (fun x => x * (1 - beta2 p))%R g Unsafe;
       do _ <- op1 (fun x => x * beta1 p)%R (fst cv) (Incr t1);
       do _ <- op1 (fun x => x * beta2 p)%R (snd cv) (Incr g);
       do d <- cloneT g;
       do mHats <- cloneT t1;
       do vHats <- cloneT g;
       do _ <- op1 (fun x => x * (1 / correction1))%R mHats Unsafe;
       do _ <- op1 (fun x => x * (1 / correction2))%R vHats Unsafe;
       do _ <- op1 sqrt vHats Unsafe;
       do _ <- op1 (fun x => x + eps p)%R vHats Unsafe;
       do _ <- op1 (fun x => x * - eta p)%R mHats Unsafe;
       do _ <- op2 Rdiv mHats vHats Unsafe;
       do _ <- op2 Rplus w mHats Unsafe;
       do _ <- zeroT g; ret (t1, d)) h
  | Some (Sc mm) =>
      (do gv <- scalar g; do wv <- scalar w; do v <- scalar (snd cv);
       let gv := prepScalar p wv gv in
       let newM := (beta1 p * mm + (1 - beta1 p) * gv)%R in
       let newV := (beta2 p * v + (1 - beta2 p) * gv * gv)%R in
       do cm <- new (Sc newM); do cd <- new (Sc newV);
       let mHat := (1 / correction1 * newM)%R in
       let vHat := (1 / correction2 * newV)%R in
       let upd := (- eta p * mHat / (sqrt vHat + eps p))%R in
       do _ <- write w (Sc (wv + upd)%R); do _ <- write g (Sc 0%R); ret (cm, cd)) h
  | None => Err h
  end.
(** The state is the cache and the counter; the counter is raised first (466).
    (solvers.go:461-752 [AdamSolver.Step].) *)
Definition adamStep (p : params) (model : list node) (s : nat * cache) (h : heap) : out (nat * cache) :=
  let it := S (fst s) in
  match stepLoop (adamNode p it) model 0 (initCache model (snd s)) h with
  | Done c h' => Done (it, c) h' | Fail c h' => Fail (it, c) h' | Crash => Crash
  end.

(** solvers.go:1408-1549 [BarzilaiBorweinSolver.Step].  The state is the learn rate and
    the saved values and gradients.  Simplified: a division by zero has a value in R (the
    theorems exclude it); the code also panics on float32 tensors in the second Step, where
    the contraction's data is asserted to be []float64 (1471, 1480). *)
Definition bbState := (R * cache)%type.
(** A contraction over all axes of two tensors of one shape (tensor.Contract, library, called at
    solvers.go:1460-1480). *)
Definition sumR (l : list R) : R := fold_right Rplus 0%R l.
(** The type assertion with a check, an error if it fails (solvers.go:1420-1546). *)
Definition isDense (p : nat) : heap -> res (list R) := fun h => match cells h p with Some (Dn l) => Ok l h | _ => Err h end.
(** 1420-1487: numerator and denominator of the learn rate. (solvers.go.) *)
Fixpoint bbSums (model : list node) (i : nat) (prev : cache) (acc : R * R) : heap -> res (R * R) :=
  match model with
  | [] => ret acc
  | n :: r =>
      do wg <- extractWeightGrad n;
      do w <- isDense (fst wg); do g <- isDense (snd wg);
      match getCache prev i with
      | Some (Some old) =>
          do wOld <- isDense (fst old); do gOld <- isDense (snd old);
          if Nat.eqb (length w) (length wOld) && Nat.eqb (length g) (length gOld) && Nat.eqb (length w) (length g) then
            let valueDiff := map2 Rminus w wOld in
            let gradDiff := map2 Rminus g gOld in
            bbSums r (S i) prev ((fst acc + sumR (map2 Rmult valueDiff gradDiff))%R, (snd acc + sumR (map2 Rmult gradDiff gradDiff))%R)
          else (fun h => Err h)
      | _ => fun _ => Panic
      end
  end.
(** 1500-1516: save this iteration's values. (solvers.go.) *)
Fixpoint bbSave (model : list node) (i : nat) (prev : cache) (h : heap) : out cache :=
  match model with
  | [] => Done prev h
  | n :: r =>
      match extractWeightGrad n h with
      | Err h1 => Fail prev h1
      | Panic => Crash
      | Ok (w, g) h1 =>
          match getCache prev i with
          | None => Crash
          | Some _ =>
              match newCachedDV w g false h1 with
              | Err h2 => Fail prev h2
              | Panic => Crash
              | Ok cv h2 => bbSave r (S i) (setCache prev i cv) h2
              end
          end
      end
  end.
(** 1519-1546: update the weights. (solvers.go.) *)
Fixpoint bbUpdate (e : R) (model : list node) : heap -> res unit :=
  match model with
  | [] => ret tt
  | n :: r =>
      do wg <- extractWeightGrad n;
      do _ <- isDense (fst wg); do _ <- isDense (snd wg);
      do upd <- op1 (fun x => x * e)%R (snd wg) Safe;
      do _ <- op2 Rminus (fst wg) upd Unsafe;
      do _ <- zeroT (snd wg);
      bbUpdate e r
  end.
(** 1489-1497: the learn rate, clipped. (solvers.go.) *)
Definition bbRate (p : params) (nd : R * R) : R :=
  let e := (fst nd / snd nd)%R in
  if useClip p && Rltb (clip p) (Rabs e) then (if Rltb e 0 then - clip p else clip p)%R else e.
(** solvers.go:1408-1549 [BarzilaiBorweinSolver.Step]. *)
Definition bbStep (p : params) (model : list node) (s : bbState) (h : heap) : out bbState :=
  let rest (e : R) (prev : cache) (h : heap) : out bbState :=
    match bbSave model 0 prev h with
    | Crash => Crash
    | Fail c h' => Fail (e, c) h'
    | Done c h' => match bbUpdate e model h' with Ok _ h'' => Done (e, c) h'' | Err h'' => Fail (e, c) h'' | Panic => Crash end
    end in
  match snd s with
  | None => rest (fst s) (Some (map (fun _ => None) model)) h
  | Some _ =>
      match bbSums model 0 (snd s) (0%R, 0%R) h with
      | Ok nd h' => rest (bbRate p nd) (snd s) h'
      | Err h' => Fail s h'
      | Panic => Crash
      end
  end.

(** solvers.go:1551-1556 [adamwState]: expMA, expMASq, denom, by node. *)
Definition adamwStates := list (nat * (nat * nat * nat)).
(** a.states[node] (solvers.go:1612). *)
Fixpoint findState (st : adamwStates) (k : nat) : option (nat * nat * nat) :=
  match st with [] => None | (k', v) :: r => if Nat.eqb k k' then Some v else findState r k end.
(** solvers_utils.go:10-58 [doL1Reg], [doL2Reg], [divBatch], [clipGrad]. *)
Definition doL1Reg (p : params) (w g : nat) : heap -> res nat :=
  do l1regs <- op1 signT w Safe; op1 (fun x => l1reg p * x)%R l1regs (Incr g).
(** solvers_utils.go:22-27 [doL2Reg]. *)
Definition doL2Reg (p : params) (w g : nat) : heap -> res nat := op1 (fun x => x * l2reg p)%R w (Incr g).
(** solvers_utils.go:40-51 [divBatch]. *)
Definition divBatch (p : params) (g : nat) : heap -> res nat := op1 (fun x => x * (1 / batch p))%R g Unsafe.
(** solvers_utils.go:53-58 [clipGrad]. *)
Definition clipGrad (p : params) (g : nat) : heap -> res nat := op1 (clamp (- clip p) (clip p)) g Unsafe.
(** solvers.go:1593-1737 [AdamW.Step] after the state was looked up. *)
Definition adamwNode (p : params) (it : nat) (w g : nat) (st : nat * nat * nat) : heap -> res unit :=
  let '(expMA, expMASq, denom) := st in
  let b1 := (1 - beta1 p ^ it)%R in let b2 := (1 - beta2 p ^ it)%R in
  do _ <- (if useL1Reg p then doL1Reg p w g else ret g);
  do _ <- (if useL2Reg p then doL2Reg p w g else ret g);
  do _ <- (if Rltb 1 (batch p) then divBatch p g else ret g);
  do _ <- (if useClip p && Rltb 0 (clip p) then clipGrad p g else ret g);
  do w' <- op1 (fun x => x * (1 - eta p * decay p))%R w Safe;
  do expMA' <- op1 (fun x => x * b1)%R expMA Unsafe;
  do _ <- op1 (fun x => x * (1 - b1))%R g (Incr expMA');
  do expMASq' <- op1 (fun x => x * b2)%R expMASq Unsafe;
  do gSq <- op2 Rmult g g Unsafe;
  do _ <- op1 (fun x => x * (1 - b2))%R gSq (Incr expMASq');
  do denom1 <- op1 sqrt expMASq' (Reuse denom);
  do denom2 <- op1 (fun x => x / sqrt b2)%R denom1 Unsafe;
  do denom3 <- op1 (fun x => x + eps p)%R denom2 Unsafe;
  do denom4 <- op2 Rdiv expMA' denom3 (Reuse denom3);
  do _ <- op1 (fun x => x * - (eta p / b1))%R denom4 (Incr w');
  zeroT g.
(** 1612-1620: a missing state is made of three zero tensors of the gradient's size.
    (solvers.go.) *)
Definition stateOf (sts : adamwStates) (n : node) (gl : list R) : heap -> res ((nat * nat * nat) * adamwStates) := fun h =>
  match findState sts (nid n) with
  | Some st => Ok (st, sts) h
  | None =>
      let z := Dn (map (fun _ => 0%R) gl) in
      (do a <- new z; do b <- new z; do c <- new z; ret ((a, b, c), (nid n, (a, b, c)) :: sts)) h
  end.
(** The loop (1602-1735); a scalar weight or gradient fails the type assertion (1608-1609).
    (solvers.go.) *)
Fixpoint adamwLoop (p : params) (it : nat) (model : list node) (sts : adamwStates) (h : heap) : out adamwStates :=
  match model with
  | [] => Done sts h
  | n :: r =>
      match extractWeightGrad n h with
      | Err h1 => Fail sts h1
      | Panic => Crash
      | Ok (w, g) h1 =>
          match (do _ <- dense w; dense g) h1 with
          | Err h2 => Fail sts h2
          | Panic => Crash
          | Ok gl h2 =>
              match stateOf sts n gl h2 with
              | Err h3 => Fail sts h3
              | Panic => Crash
              | Ok (st, sts') h3 =>
                  match adamwNode p it w g st h3 with
                  | Ok _ h4 => adamwLoop p it r sts' h4
                  | Err h4 => Fail sts' h4
                  | Panic => Crash
                  end
              end
          end
      end
  end.
(** solvers.go:1593-1737 [AdamW.Step]. *)
Definition adamwStep (p : params) (model : list node) (s : nat * adamwStates) (h : heap) : out (nat * adamwStates) :=
  let it := S (fst s) in
  match adamwLoop p it model (snd s) h with
  | Done c h' => Done (it, c) h' | Fail c h' => Fail (it, c) h' | Crash => Crash
  end.
