(** Initial weights (weights.go). Proof-free. Exact numbers: only the conversion of a number
    to float32 is kept, as a function; additions and products do not round and integers do
    not overflow. Axes are not negative (make panics for a negative size, weights.go:29). *)
From Coq Require Import List Arith Reals.
From Verif Require Import BroadcastModel ShapeGradModel.
Import ListNotations.
Local Open Scope R_scope.

(** Dtypes that the switches tell apart (weights.go:27-36, 60-125). *)
Inductive wtype := W64 | W32 | WInt | WOther.
(** An interface{} argument (weights.go:56, 132): float64, float32, int or anything else. *)
Inductive iface := IF64 (x : R) | IF32 (x : R) | IInt (z : Z) | IOther.
(** What an InitWFn returns (weights.go:21): a slice, or a single number. *)
Inductive backing := Slice (dt : wtype) (xs : list R) | Single (dt : wtype) (x : R).

Section Weights.
(** The conversion float32(x) (weights.go:96, 286, 300). *)
Variable rnd : R -> R.
(** The generators of go_rng (library) made from a seed (weights.go:270, 295): the i-th
    NormFloat64, Float64 and Float32, and the i-th Binomial draw. *)
Variables gauss unif unif32 : Z -> nat -> R.

(** Shape.TotalSize (library; weights.go:26): 1 for a scalar. *)
Definition wsize (s : list nat) : nat := fold_right Nat.mul 1%nat s.
(** [for i := range retVal] (weights.go:272-274, 297-299): the first panic ends the call. *)
Fixpoint fillFrom (f : nat -> res R) (i n : nat) : res (list R) :=
  match n with
  | O => Ok []
  | S n' => bind (f i) (fun x => bind (fillFrom f (S i) n') (fun xs => Ok (x :: xs)))
  end.
(** GaussianGenerator.Gaussian (library; weights.go:273, 372). *)
Definition gaussianDraw (mean stdev z : R) : R := mean + stdev * z.
(** UniformGenerator.Float64Range and Float32Range (library; weights.go:298, 313, 424): a
    panic unless the first bound is below the second. *)
Definition rangeDraw (lo hi u : R) : res R := if Rlt_dec lo hi then Ok (lo + u * (hi - lo)) else Panic.

(** Gaussian64 (weights.go:267-277). *)
Definition gaussian64 (seed : Z) (mean stdev : R) (s : list nat) : res (list R) :=
  fillFrom (fun i => Ok (gaussianDraw mean stdev (gauss seed i))) 0 (wsize s).
(** Gaussian32 (weights.go:280-289). *)
Definition gaussian32 (seed : Z) (mean stdev : R) (s : list nat) : res (list R) :=
  fillFrom (fun i => Ok (rnd (gaussianDraw mean stdev (gauss seed i)))) 0 (wsize s).
(** Uniform64 (weights.go:292-301). *)
Definition uniform64 (seed : Z) (low high : R) (s : list nat) : res (list R) :=
  fillFrom (fun i => rangeDraw low high (unif seed i)) 0 (wsize s).
(** Uniform32 (weights.go:304-315). *)
Definition uniform32 (seed : Z) (low high : R) (s : list nat) : res (list R) :=
  fillFrom (fun i => rangeDraw (rnd low) (rnd high) (unif32 seed i)) 0 (wsize s).

(** n1, n2 and fieldSize of the Glorot functions (weights.go:349-363, 399-413); no axes is a
    panic. *)
Definition glorotSizes (s : list nat) : res (nat * nat * nat) :=
  match s with
  | [] => Panic
  | [n] => Ok (1%nat, n, 1%nat)
  | n1 :: n2 :: rest => Ok (n1, n2, fold_left Nat.mul rest 1%nat)
  end.
(** stdev (weights.go:365-368, 415-418). A fanIn of zero gives +Inf; it occurs for empty
    weights only. *)
Definition glorotStdev (gain : R) (n1 n2 field : nat) : R := gain * sqrt (2 / INR ((n1 + n2) * field)).
(** GlorotEtAlN64 (weights.go:348-376). *)
Definition glorotN64 (seed : Z) (gain : R) (s : list nat) : res (list R) :=
  bind (glorotSizes s) (fun p => let '(n1, n2, field) := p in
  fillFrom (fun i => Ok (gaussianDraw 0 (glorotStdev gain n1 n2 field) (gauss seed i))) 0 (wsize s)).
(** GlorotEtAlN32 (weights.go:381-388). *)
Definition glorotN32 (seed : Z) (gain : R) (s : list nat) : res (list R) :=
  bind (glorotN64 seed gain s) (fun xs => Ok (map rnd xs)).
(** GlorotEtAlU64 (weights.go:398-428). *)
Definition glorotU64 (seed : Z) (gain : R) (s : list nat) : res (list R) :=
  bind (glorotSizes s) (fun p => let '(n1, n2, field) := p in
  let stdev := glorotStdev gain n1 n2 field in
  fillFrom (fun i => rangeDraw (0 - sqrt 3 * stdev) (0 + sqrt 3 * stdev) (unif seed i)) 0 (wsize s)).
(** GlorotEtAlU32 (weights.go:438-445): calls GlorotEtAlN64. *)
Definition glorotU32 (seed : Z) (gain : R) (s : list nat) : res (list R) :=
  bind (glorotN64 seed gain s) (fun xs => Ok (map rnd xs)).

(** fanIn of the He functions (weights.go:456-469, 494-507); fewer than two axes is a
    panic. *)
Definition heFanIn (s : list nat) : res R :=
  match s with
  | [] | [_] => Panic
  | [n; _] => Ok (INR n)
  | _ :: rest => Ok (fold_left (fun f v => f * INR v) rest 1)
  end.
(** HeEtAlN64 (weights.go:455-480). *)
Definition heN64 (seed : Z) (gain : R) (s : list nat) : res (list R) :=
  bind (heFanIn s) (fun fanIn =>
  let stdev := gain * sqrt (1 / fanIn) in
  fillFrom (fun i => Ok (gaussianDraw 0 stdev (gauss seed i))) 0 (wsize s)).
(** HeEtAlU64 (weights.go:491-520). *)
Definition heU64 (seed : Z) (gain : R) (s : list nat) : res (list R) :=
  bind (heFanIn s) (fun fanIn =>
  let stdev := gain * sqrt (1 / fanIn) in
  fillFrom (fun i => rangeDraw (0 - sqrt 3 * stdev) (0 + sqrt 3 * stdev) (unif seed i)) 0 (wsize s)).

(** A slice of the dtype around the numbers (weights.go:29, 173). *)
Definition slice (dt : wtype) (r : res (list R)) : res backing := bind r (fun xs => Ok (Slice dt xs)).
(** The type switches for a Float64 tensor (weights.go:63-78), a Float32 tensor (90-110) and
    the assertion for an Int tensor (119-120). *)
Definition toNumber (dt : wtype) (x : iface) : res R :=
  match dt, x with
  | W64, IF64 r => Ok r
  | W64, IInt z => Ok (IZR z)
  | W32, IF32 r => Ok r
  | W32, IF64 r => Ok (rnd r)
  | W32, IInt z => Ok (rnd (IZR z))
  | WInt, IInt z => Ok (IZR z)
  | _, _ => Panic
  end.
(** The loops of RangedFromWithStep (weights.go:81-84, 113-116, 122-125). *)
Fixpoint ranged (st incr : R) (n : nat) : list R :=
  match n with O => [] | S n' => st :: ranged (st + incr) incr n' end.
(** The assertions of ValuesOf (weights.go:137, 144, 151). *)
Definition assertValue (dt : wtype) (x : iface) : res R :=
  match dt, x with
  | W64, IF64 r => Ok r
  | W32, IF32 r => Ok r
  | WInt, IInt z => Ok (IZR z)
  | _, _ => Panic
  end.

(** The functions that make an InitWFn (weights.go:24-264). *)
Inductive initW :=
| Zeroes | Ones | RangedFrom (start : Z) | RangedFromWithStep (start increment : iface) | ValuesOf (v : iface)
| Gaussian (mean stdev : R) | Uniform (low high : R) | GlorotN (gain : R) | GlorotU (gain : R) | HeN (gain : R) | HeU (gain : R).
(** The functions made (weights.go:24-264), called when the clock reads [seed]. tensor.Range
    (library; 50) counts up by one; the dtypes it refuses are left out. *)
Definition initial (w : initW) (seed : Z) (dt : wtype) (s : list nat) : res backing :=
  match w with
  | Zeroes => Ok (Slice dt (repeat 0 (wsize s)))
  | Ones => match s with [] => Ok (Single dt 1) | _ => Ok (Slice dt (repeat 1 (wsize s))) end
  | RangedFrom start => Ok (Slice dt (map (fun i => IZR (start + Z.of_nat i)) (seq 0 (wsize s))))
  | RangedFromWithStep start increment =>
      bind (toNumber dt start) (fun st => bind (toNumber dt increment) (fun incr => Ok (Slice dt (ranged st incr (wsize s)))))
  | ValuesOf v => bind (assertValue dt v) (fun x => Ok (Slice dt (repeat x (wsize s))))
  | Gaussian mean stdev => match dt with W64 => slice W64 (gaussian64 seed mean stdev s) | W32 => slice W32 (gaussian32 seed mean stdev s) | _ => Panic end
  | Uniform low high => match dt with W64 => slice W64 (uniform64 seed low high s) | W32 => slice W32 (uniform32 seed low high s) | _ => Panic end
  | GlorotN gain => match dt with W64 => slice W64 (glorotN64 seed gain s) | W32 => slice W32 (glorotN32 seed gain s) | _ => Panic end
  | GlorotU gain => match dt with W64 => slice W64 (glorotU64 seed gain s) | W32 => slice W32 (glorotU32 seed gain s) | _ => Panic end
  | HeN gain => match dt with W64 => slice W64 (heN64 seed gain s) | _ => Panic end
  | HeU gain => match dt with W64 => slice W64 (heU64 seed gain s) | _ => Panic end
  end.
End Weights.
