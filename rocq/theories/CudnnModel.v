(** Model of the cuDNN operators of ops/nn (build tag cuda): convolution_cuda.go,
    maxpool_cuda.go, activation_cuda.go, batchnorm_cuda.go and BatchNorm of api_cuda.go.
    No proofs in this file.  Not modelled: dropout, descriptors other than whether they are
    there, and the queue of the GPU. *)
From Coq Require Import Reals List String.
From Verif Require Import BroadcastModel GraphModel.
Import ListNotations.
Open Scope R_scope.

(** Memory of the device (tensor.Memory, device_cuda.go:20-36): real numbers in place of
    floats. *)
Definition gvec := list R.
(** What cuDNN leaves in its output, for all functions that take alpha and beta (NVIDIA's
    documentation: alpha times the result plus beta times what was there before), such as
    ConvolutionForward (convolution_cuda.go:111-119). *)
Definition blend (alpha : R) (result : gvec) (beta : R) (prior : gvec) : gvec :=
  map (fun p => alpha * fst p + beta * snd p) (combine result prior).

Section Library.
(** cudnnConvolutionForward of an image and a filter; cudnnConvolutionBackwardData of a filter
    and a gradient; cudnnConvolutionBackwardFilter of an image and a gradient, for the
    descriptors of the operator (convolution_cuda.go:33-60). *)
Variables conv bwdData bwdFilter : gvec -> gvec -> gvec.
(** cudnnPoolingForward; cudnnPoolingBackward of y, dy and x (maxpool_cuda.go:30-45). *)
Variable pool : gvec -> gvec.
Variable poolBwd : gvec -> gvec -> gvec -> gvec.
(** cudnnActivationForward; cudnnActivationBackward of y, dy and x (activation_cuda.go:21-27). *)
Variable act : gvec -> gvec.
Variable actBwd : gvec -> gvec -> gvec -> gvec.

(** convolution.CUDADo (convolution_cuda.go:95-121). *)
Definition convDo (inputs : list gvec) (prealloc : gvec) : res gvec :=
  match inputs with
  | [im; filter] => Ok (blend 1 (conv im filter) 1 prealloc)
  | _ => Err
  end.
(** convDiffIm.CUDADo (convolution_cuda.go:192-211). *)
Definition convDiffImDo (inputs : list gvec) (prealloc : gvec) : res gvec :=
  match inputs with
  | [filter; grad] => Ok (blend 1 (bwdData filter grad) 1 prealloc)
  | _ => Err
  end.
(** convDiffFilter.CUDADo (convolution_cuda.go:248-267). *)
Definition convDiffFilterDo (inputs : list gvec) (prealloc : gvec) : res gvec :=
  match inputs with
  | [im; grad] => Ok (blend 1 (bwdFilter im grad) 1 prealloc)
  | _ => Err
  end.
(** The operators of the file (convolution_cuda.go:19-30, 157-160, 213-216). *)
Inductive cop := OConv | ODiffIm | ODiffFilter.
(** convolution.SymDiff (convolution_cuda.go:131-155): the operators and the nodes they are
    applied to. *)
Definition convSymDiff (im filter grad : nat) : list (cop * list nat) :=
  [(ODiffIm, [im; grad]); (ODiffFilter, [filter; grad])].
(** Executing such a node, its inputs having the values [env] (vm_tape_cuda.go:74-93). *)
Definition execC (env : nat -> gvec) (n : cop * list nat) (prealloc : gvec) : res gvec :=
  let inputs := map env (snd n) in
  match fst n with
  | OConv => convDo inputs prealloc
  | ODiffIm => convDiffImDo inputs prealloc
  | ODiffFilter => convDiffFilterDo inputs prealloc
  end.
(** The node executed [k] times over: every run finds in its register what the previous one
    left (vm_tape_cuda.go:88). *)
Fixpoint execTimes (k : nat) (env : nat -> gvec) (n : cop * list nat) (prealloc : gvec) : res gvec :=
  match k with
  | O => Ok prealloc
  | S k' => match execC env n prealloc with Ok y => execTimes k' env n y | Err => Err | Panic => Panic end
  end.

(** maxpool (maxpool_cuda.go:23-28): is yDesc there?  maxpool.CUDADo (94-111). *)
Definition poolDo (yDesc : bool) (inputs : list gvec) (prealloc : gvec) : bool * res gvec :=
  match inputs with
  | [x] => (true, Ok (blend 1 (pool x) 0 prealloc))
  | _ => (yDesc, Err)
  end.
(** maxpoolDiff.CUDADo (maxpool_cuda.go:177-188) on the same struct (116); a nil descriptor is
    dereferenced by the library. *)
Definition poolDiffDo (yDesc : bool) (inputs : list gvec) (prealloc : gvec) : res gvec :=
  match inputs with
  | [x; y; dy] => if yDesc then Ok (blend 1 (poolBwd y dy x) 0 prealloc) else Panic
  | _ => Err
  end.
(** activation (activation_cuda.go:16-19): are xDesc and yDesc there?  CUDADo (72-94) sets
    both. *)
Definition actDo (descs : bool) (inputs : list gvec) (prealloc : gvec) : bool * res gvec :=
  match inputs with
  | [x] => (true, Ok (blend 1 (act x) 0 prealloc))
  | _ => (descs, Err)
  end.
(** activationDiff.CUDADo (activation_cuda.go:130-153), on the descriptors of the activation;
    the number of inputs is not checked: fewer than three panic, more are ignored. *)
Definition actDiffDo (descs : bool) (inputs : list gvec) (prealloc : gvec) : res gvec :=
  match inputs with
  | x :: y :: dy :: _ => if descs then Ok (blend 1 (actBwd y dy x) 0 prealloc) else Panic
  | _ => Panic
  end.

(** cudnnBatchNormalizationForwardTraining: the result for x, scale and bias, the mean and
    variance of the batch and what is saved for the backward pass; ...ForwardInference for x,
    scale, bias, mean and variance; ...Backward for x, scale, dy and what was saved: the
    gradients of x, scale and bias. *)
Variable bnTrain : gvec -> gvec -> gvec -> gvec.
Variables bnMean bnVar bnSaveMean bnSaveVar : gvec -> gvec.
Variable bnInfer : gvec -> gvec -> gvec -> gvec -> gvec -> gvec.
Variables bnDx bnDscale bnDbias : gvec -> gvec -> gvec -> gvec -> gvec -> gvec.

(** The memory behind the seven inputs that the operator writes to (batchnorm_cuda.go:72). *)
Record bnmem := BNMem { mMean : gvec; mVar : gvec; mCachedMean : gvec; mCachedVar : gvec }.
(** BatchNormOp.CUDADo (batchnorm_cuda.go:66-113); the running statistics move by [momentum]
    towards those of the batch (cuDNN's exponentialAverageFactor). *)
Definition bnDo (training : bool) (momentum : R) (x scale bias : gvec) (m : bnmem) (prealloc : gvec) : bnmem * gvec :=
  let alpha := 0 in
  let beta := 1 in
  if training then
    (BNMem (blend momentum (bnMean x) (1 - momentum) (mMean m)) (blend momentum (bnVar x) (1 - momentum) (mVar m))
           (bnSaveMean x) (bnSaveVar x),
     blend alpha (bnTrain x scale bias) beta prealloc)
  else (m, blend alpha (bnInfer x scale bias (mMean m) (mVar m)) beta prealloc).
(** batchNormDiffOp.CUDADo (batchnorm_cuda.go:192-219): what becomes of the memory of the
    gradients of x, scale and bias. *)
Definition bnDiffDo (x scale dscale dbias dy cachedMean cachedVar prealloc : gvec) : gvec * gvec * gvec :=
  let alpha := 0 in
  let beta := 1 in
  (blend alpha (bnDx x scale dy cachedMean cachedVar) beta prealloc,
   blend alpha (bnDscale x scale dy cachedMean cachedVar) beta dscale,
   blend alpha (bnDbias x scale dy cachedMean cachedVar) beta dbias).
End Library.

Section Nodes.
Local Open Scope string_scope.
(** The hash and the printers of types and shapes; see [GraphModel]. *)
Variable H : string -> word.
Variable fmtTS : ntype -> list nat -> string.
(** fmt of a shape and of a dtype (scratch_cuda.go:36-38). *)
Variable fmtShape : list nat -> string.
Variable fmtDt : nat -> string.

(** gpuScratchOp.WriteHash (scratch_cuda.go:36-38). *)
Definition scratchBytes (shape : list nat) (dt : nat) (name : string) : string :=
  "CUDA Scratch " ++ fmtShape shape ++ " of " ++ fmtDt dt ++ " | " ++ name.
(** NewTensor(g, dt, dims, WithShape, WithName, WithOp) (gorgonia.go:72-84) of a scratch
    operator, which is no input since it has an operator (node.go:322-323). *)
Definition newScratch (g : graph) (dims dt : nat) (shape : list nat) (name : string) (opShape : list nat) (opName : string) : option (graph * ptr) :=
  newUniqueNode H fmtTS g (mkLabel KOp name (TTensor dims dt) shape (scratchBytes opShape dt opName) false) [].
(** BatchNorm (api_cuda.go:52-76): the four scratch nodes mean, variance, cacheMean and
    cacheVariance for an x of name [xname], shape [xshape] and dtype [dt]; the caches have no
    name.  A shape of fewer than four axes panics (None). *)
Definition bnScratch (g : graph) (xname : string) (xshape : list nat) (dt : nat) : option (graph * list ptr) :=
  match xshape with
  | _ :: channels :: h :: w :: _ =>
      let scratchShape := [1; channels; h; w]%nat in
      let dims := List.length xshape in
      match newScratch g dims dt scratchShape (xname ++ "_mean") xshape "mean" with
      | None => None
      | Some (g1, mean) =>
      match newScratch g1 dims dt scratchShape (xname ++ "_variance") xshape "variance" with
      | None => None
      | Some (g2, variance) =>
      match newScratch g2 dims dt scratchShape "" scratchShape "cacheMean" with
      | None => None
      | Some (g3, cacheMean) =>
      match newScratch g3 dims dt scratchShape "" scratchShape "cacheVariance" with
      | None => None
      | Some (g4, cacheVariance) => Some (g4, [mean; variance; cacheMean; cacheVariance])
      end end end end
  | _ => None
  end.
End Nodes.
