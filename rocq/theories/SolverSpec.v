(** Specification of the solvers: what happens to one weight, as formulas over R, and how
    a model is fed with gradients and stepped. *)
From Coq Require Import Reals List Bool Arith.
From Verif Require Import SolverModel.
Import ListNotations.
Open Scope R_scope.

(** ** One weight *)
Definition sgn (x : R) : R := if Rlt_dec x 0 then -1 else if Rlt_dec 0 x then 1 else 0.
(** Scalars take 1 for the sign of zero. *)
Definition sgnS (x : R) : R := if Rlt_dec x 0 then -1 else 1.
Definition between (c x : R) : R := Rmax (- c) (Rmin c x).
(** The gradient with penalties on [r], divided by the batch size, clipped. *)
Definition l1 (p : params) : R := if useL1Reg p then l1reg p else 0.
Definition l2 (p : params) : R := if useL2Reg p then l2reg p else 0.
Definition batchSize (p : params) : R := if Rlt_dec 1 (batch p) then batch p else 1.
Definition clipped (p : params) (x : R) : R := if useClip p then between (clip p) x else x.
Definition penalised (p : params) (s r g : R) : R := clipped p ((g + l1 p * s + l2 p * r) / batchSize p).

(** Memory (two numbers per weight) and weight after one step with gradient [g]; [k] is
    the number of the step.  [dn]: the weight is an entry of a tensor, not a scalar. *)
Definition rule := bool -> nat -> R * R -> R -> R -> (R * R) * R.
Definition vanillaRule (p : params) : rule := fun dn k m w g =>
  (m, w - eta p * penalised p (if dn then sgn w else sgnS w) w g).
(** Tensors: the penalties are computed from the velocity.  Scalars: the velocity that is
    remembered stays what it was. *)
Definition momentumRule (p : params) : rule := fun dn k m w g =>
  if dn then let v := momentum p * fst m - eta p * penalised p (sgn (fst m)) (fst m) g in ((v, snd m), w + v)
  else let v := momentum p * fst m - eta p * penalised p (sgnS w) w g in (m, w + v).
Definition adagradRule (p : params) : rule := fun dn k m w g =>
  let c := fst m + g * g in
  (if dn then (c, snd m) else m, w - eta p * clipped p g / sqrt (c + eps p) - l2 p * w).
(** Scalars are not clipped. *)
Definition rmspropRule (p : params) : rule := fun dn k m w g =>
  let c := decay p * fst m + (1 - decay p) * (g * g) in
  ((c, snd m), w - eta p * (if dn then clipped p g else g) / sqrt (c + eps p) - l2 p * w).
Definition adamRule (p : params) : rule := fun dn k m w g =>
  let g' := penalised p (if dn then sgn w else sgnS w) w g in
  let m1 := beta1 p * fst m + (1 - beta1 p) * g' in
  let m2 := beta2 p * snd m + (1 - beta2 p) * (g' * g') in
  ((m1, m2), w - eta p * (m1 / (1 - beta1 p ^ k)) / (sqrt (m2 / (1 - beta2 p ^ k)) + eps p)).

(** The weight after gradients [gs], the first of them in step [k]. *)
Fixpoint traj (r : rule) (dn : bool) (k : nat) (m : R * R) (w : R) (gs : list R) : (R * R) * R :=
  match gs with
  | [] => (m, w)
  | g :: gs' => let mw := r dn k m w g in traj r dn (S k) (fst mw) (snd mw) gs'
  end.
Definition after (r : rule) (dn : bool) (w : R) (gs : list R) : R := snd (traj r dn 1 (0, 0) w gs).

(** ** A model *)
(** Same kind and size. *)
Definition alike (a b : cell) : Prop :=
  match a, b with Sc _, Sc _ => True | Dn x, Dn y => length x = length y | _, _ => False end.
Definition pointers (n : node) : list nat := weights n :: match grad n with Some g => [g] | None => [] end.
(** Every node has a weight and a gradient alike, in memory, and no two share a cell. *)
Record fit (model : list node) (h : heap) : Prop := {
  fit_node : Forall (fun n => exists g cw cg, grad n = Some g /\ cells h (weights n) = Some cw /\ cells h g = Some cg /\ alike cw cg) model;
  fit_sep : NoDup (flat_map pointers model);
  fit_old : Forall (fun p => (p < nextp h)%nat) (flat_map pointers model) }.

(** New gradients: [r i] for the i-th node. *)
Fixpoint feed (model : list node) (i : nat) (r : nat -> cell) (h : heap) : heap :=
  match model with
  | [] => h
  | n :: rest => feed rest (S i) r (match grad n with Some g => set h g (r i) | None => h end)
  end.
Definition fitRound (model : list node) (h : heap) (r : nat -> cell) : Prop :=
  forall i n c, nth_error model i = Some n -> cells h (weights n) = Some c -> alike c (r i).
(** A round: feed the gradients, step. *)
Fixpoint rounds {S} (step : list node -> S -> heap -> out S) (model : list node) (rs : list (nat -> cell)) (s : S) (h : heap) : out S :=
  match rs with
  | [] => Done s h
  | r :: rs' => match step model s (feed model 0 r h) with Done s' h' => rounds step model rs' s' h' | o => o end
  end.
(** Vanilla as a solver without state. *)
Definition vanillaOut (p : params) (model : list node) (s : unit) (h : heap) : out unit :=
  match vanillaStep p model h with Ok _ h' => Done tt h' | Err h' => Fail tt h' | Panic => Crash end.
(** The entry [j] of a cell; a scalar is its own only entry. *)
Definition entry (c : cell) (j : nat) : R := match c with Sc x => x | Dn l => nth j l 0 end.
Definition size (c : cell) : nat := match c with Sc _ => 1 | Dn l => length l end.
Definition isDn (c : cell) : bool := match c with Dn _ => true | Sc _ => false end.
(** What a solver with rule [r] must have done to the model after rounds [rs]. *)
Definition follows (r : rule) (model : list node) (rs : list (nat -> cell)) (h h' : heap) : Prop :=
  (forall i n c, nth_error model i = Some n -> cells h (weights n) = Some c ->
     exists c', cells h' (weights n) = Some c' /\ alike c c' /\
       forall j, (j < size c)%nat -> entry c' j = after r (isDn c) (entry c j) (map (fun rd => entry (rd i) j) rs)) /\
  (forall n g, In n model -> grad n = Some g -> rs <> [] -> exists c, cells h' g = Some c /\ forall j, entry c j = 0) /\
  (forall q, (q < nextp h)%nat -> ~ In q (flat_map pointers model) -> cells h' q = cells h q).

(** ** Closed forms *)
(** Settings under which no formula divides by zero or takes the root of a negative
    number, and clipping has a positive bound. *)
Record sane (p : params) : Prop := {
  sane_eps : 0 < eps p; sane_b1 : 0 <= beta1 p < 1; sane_b2 : 0 <= beta2 p < 1; sane_decay : 0 <= decay p <= 1;
  sane_clip : useClip p = true -> 0 < clip p }.
(** Gradient descent: no memory at all. *)
Definition descend (f : R -> R -> R) (w : R) (gs : list R) : R := fold_left f gs w.
(** AdaGrad: the root of the sum of the squares so far. *)
Fixpoint adagrad (p : params) (acc w : R) (gs : list R) : R :=
  match gs with
  | [] => w
  | g :: gs' => adagrad p (acc + g * g) (w - eta p * clipped p g / sqrt (acc + g * g + eps p) - l2 p * w) gs'
  end.
(** Momentum: the velocity [v] so far; the penalties are computed from it. *)
Fixpoint heavyBall (p : params) (v w : R) (gs : list R) : R :=
  match gs with
  | [] => w
  | g :: gs' => let v' := momentum p * v - eta p * penalised p (sgn v) v g in heavyBall p v' (w + v') gs'
  end.

(** ** C58: options.  The last value asked for, or the default. *)
Definition latest (asks : opt -> option R) (opts : list opt) (d : R) : R :=
  fold_left (fun v o => match asks o with Some x => x | None => v end) opts d.
Definition asked (asks : opt -> option R) (opts : list opt) : bool :=
  existsb (fun o => match asks o with Some _ => true | None => false end) opts.
Definition asksL2 o := match o with WithL2Reg x => Some x | _ => None end.
Definition asksL1 o := match o with WithL1Reg x => Some x | _ => None end.
Definition asksBatch o := match o with WithBatchSize x => Some x | _ => None end.
Definition asksEps o := match o with WithEps x => Some x | _ => None end.
Definition asksClip o := match o with WithClip x => Some x | _ => None end.
Definition asksRate o := match o with WithLearnRate x => Some x | _ => None end.
Definition asksBeta1 o := match o with WithBeta1 x => Some x | _ => None end.
Definition asksBeta2 o := match o with WithBeta2 x => Some x | _ => None end.
Definition asksRho o := match o with WithRho x => Some x | _ => None end.
Definition asksMomentum o := match o with WithMomentum x => Some x | _ => None end.
(** Which option each solver listens to (rows as in the documentation of the solvers);
    AdaGrad listens to none. *)
Definition listens (k : kind) (asks : opt -> option R) : Prop :=
  match k with
  | RMSProp => In asks [asksL2; asksEps; asksClip; asksRate; asksRho]
  | Adam => In asks [asksL2; asksL1; asksBatch; asksEps; asksClip; asksRate; asksBeta1; asksBeta2]
  | Vanilla => In asks [asksL2; asksL1; asksBatch; asksClip; asksRate]
  | Momentum => In asks [asksL2; asksL1; asksBatch; asksClip; asksRate; asksMomentum]
  | AdaGrad => False
  | BarzilaiBorwein => In asks [asksClip; asksRate]
  | AdamW => In asks [asksL2; asksL1; asksBatch; asksEps; asksClip; asksRate; asksBeta1; asksBeta2; asksRho]
  end.
