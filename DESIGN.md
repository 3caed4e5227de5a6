# Formal model of gorgonia: design

The source under /repo is read as text; nothing in it is built or run.  The
model is written in Rocq (Coq 8.16.1) under `rocq/theories`.

## Layout

For each area `X` there are up to four kinds of file:

* `XModel.v`  – transcription of the Go code, function by function; no proofs.
  Every definition cites file and lines and says where it simplifies.
* `XSpec.v`   – small independent specification (what a reader of the English
  property would write down); uses the types of the model, not its helpers.
* `XProofs.v` and further files of the area – lemmas.
* `XProps.v`  – the property theorems, each followed by `Print Assumptions`
  (after the section, if there is one), with `Example`s showing that the
  hypotheses are met by a concrete non-trivial case.

Files without an area of their own: `Sums.v` (finite sums over a commutative
ring), `LoopModel.v`/`LoopProofs.v` (counting loops over bounds-checked slices).

## Trusted base

* Coq's kernel (re-checked with `coqchk`).
* The axioms `Print Assumptions` lists under each theorem; the section
  "Assumptions per theorem" below repeats them.  Only axioms of the standard
  library occur, and only those of the real numbers, functional extensionality
  and excluded middle.
* The transcription from Go to Gallina in the `*Model.v` files.
* The behaviour of external libraries (`gorgonia.org/tensor`, gonum, `hm`, the Go
  runtime) is not modelled from source (it is not available here).  Where an
  operator calls into them, the model takes the result as a parameter or uses
  the mathematical operation; the comment at the definition says which.

## Conventions

* Numbers: the control flow theorems are parametric in an arbitrary carrier and
  arithmetic.  The calculus theorems are over `R` (rounding is not modelled
  unless stated).  Gradient operators of linear maps are treated over an
  arbitrary commutative ring.  Sizes and indices are `nat` or `Z`; overflow of
  Go's `int` is not modelled unless the property is about it.
* Errors, panics and nil results are values of the model; nothing is totalised by
  a default that would make a theorem true for the wrong reason.
* Goroutines and channels are labelled transition systems; a theorem about them
  speaks of every execution.  Map iteration orders, growth of slices, random
  draws and hash functions are arbitrary (oracles).
* Properties that are false of the code are settled by a theorem `…_refuted`
  giving a witness (as general as possible), besides the strongest positive
  theorem that does hold.  The English statement in `properties.jsonl` then
  states what the code does.

## What is modelled, and how each property is proved

| id | files | modelled | proof |
|----|-------|----------|-------|
| C01, C03 | Graph* | `AddNode`, `addToAll`, `nodeEq`, `WriteHash`, `Hashcode` with an arbitrary hash of the written bytes; graph state = all, byHash, evac, constants, to | invariant by induction over histories of calls |
| C02 | OpHash* | `WriteHash` of softmax, sparsemax, dropout, im2col, max pooling, CTC and slice operators as strings/bytes | exact characterisation of equal bytes; for each confused pair `AddNode` merges whatever the hash, and the two computed values differ on a witness |
| C04 | Graph* | `Node`, `RemoveNode`, byID cache | invariant without removal; exact result after a removal; witness |
| C05, C06 | Graph* | `Roots`, `Edges`, `HasEdgeFromTo`, `Edge` | induction over graphs; witnesses |
| C07 | Graph* | constant branch of `AddNode` | equation for every graph; witnesses |
| C08 | GraphWalk | `walkGraph`, `walkFromRoots` | induction on height; permutation of the reachable set |
| C09, C10, C44, C50, C51, C52 | Tape* | `buildIntervals`, `regalloc`, `codegenerator`, value numbering by hash, the instructions' `exec` on a store of buffers | intervals (TapeIntervals), simulation: every live node's register points to a buffer holding its value (TapeProofs); witnesses for arbitrary operators |
| C11 | TapeHistory | `RunAll`, `Reset`, program counter, `Let` | induction over call histories |
| C12, C53 | Lisp* | lisp machine's queues, `forward`, `backward`, `Reset`, error path; dual values of scalar operators | equations for every program; gradients by reduction to C17's path sums |
| C13, C14, C15, C18, C20, C46 | Calc*, Cut* | the `*DiffExpr`/`*Diff` functions and the stabilising constructors as functions on expression trees; case distinctions of the float64 kernels, and of the float32 kernels of sigmoid and softplus | `derivable_pt_lim`, identities and inequalities over `R` |
| C16, C41 | Mat* | gradient rules of the linear algebra operators, `batchedMatMul`, `incrSlices` | exchange of finite sums over any commutative ring; enumeration lemma for the odometer |
| C17, C45, C47 | Backprop*, Grad* | `forwardDiffAnalysis`, `backwardDiffAnalysis`, `Backpropagate`, `Grad` | sum over paths by induction over the sorted node list; joined with C13/C15 to the derivative of the whole graph |
| C19 | Stab*, GraphProps | `logSoftmaxStabilization`, `logStabilization` as updates of a heap of nodes | for every other user of the node; witness |
| C21, C22, C54 | Conv* | loops of im2col/col2im with bounds-checked slices, `retHW`, `Conv2d` | loop invariants, exchange of sums, bounds |
| C23, C24, C25 | Pool*, Avg* | loops of max pooling, average pooling, upsampling and their gradients | loop invariants, adjointness |
| C26 | Sparsemax* | loops over sorted rows and gradient operator | optimality conditions of the projection; derivative |
| C27, C43 | Dropout* | `dropoutOp`, `dropoutDiffOp`, `minmaxSymDiff`, `minmaxAutoDiff` | entrywise algebra |
| C28 | BatchNorm* | `BatchNormOp` kernels, running statistics, `SetTraining`/`SetTesting`, gradient kernels | sums over channels; derivative of the normalisation |
| C29, C55 | Ctc* | forward and backward recursion in log space over reals with ±Inf and NaN, batches, reductions, target layouts | sums over label sequences (CtcPaths), derivative of the likelihood (CtcDeriv) |
| C30 | Bfc* | doubly linked free list on a memory of pointers | invariant that allows stale back links; conservation for histories with harmless merges (BfcCalm) |
| C57 | SolverModel, BB* | `BarzilaiBorweinSolver.Step` on a memory of scalars and dense tensors | loop lemmas for the three loops, memory invariant for the saved values, induction over rounds; least squares |
| C31, C32, C33, C56, C58 | Solver* | options, caches and `Step` of all solvers on a memory of scalars and dense tensors | symbolic execution of one node, loop lemmas, induction over rounds; frame proof for AdamW |
| C34, C39 | Broadcast* | `NewBroadcastPattern`, `Broadcast`, `autoBroadcastPattern`, `Auto`, `Reshape` | bits of bytes; tensors as functions of coordinates |
| C35, C36 | Bitset* | bitmap words; node sets as maps on a heap with an oracle for each range | histories against the last call; programs against characteristic functions |
| C37 | Xvm* | node, publisher and merge goroutines of x/vm with unbuffered channels | invariant with ghost sets of received positions; liveness by progress and a decreasing measure (no fairness needed) |
| C38 | Blase* | `enqueue` and `DoWork` as producer and worker; the `n` passed by `Dgemv` | invariant on queue and log; witnesses; linear algebra for `Dgemv` |
| C40, C42, C59, C60 | ShapeGrad* | `Transpose`, `Concat`, `Slice`, `Unconcat`, `Sum`, `Repeat`, one side of `Broadcast`, each with symbolic and where different automatic gradient | adjoint identities by reindexing sums over coordinates, any commutative ring |
| C48, C49 | GraphWalk | `Subgraph`, `SubgraphRoots`, `ExactSubgraphRoots`, `Clone` | reachability lemmas; isomorphism; witnesses |
| C61, C62 | GroupNorm* | `rowwiseMomentsF64` with its moment stacks (slices by reference), `GroupNormOp` float64 forward, gradient operator and `DoDiff` | counts, sums and sums of squares carried through Welford, merge and carry; block-wise derivative of the normalised group reused from C28 |
| C63 | Softmax* | `SoftMax`, `LogSoftMax`, `softmaxOp.Do`, `SymDiff`, `softmaxDiffOp.Do`; the library's kernels along one axis are assumed | derivative of exp/sum per line; a double sum over lines read the other way round; columns by shift invariance |
| C64, C65, C66 | Reduce* | `Max`, `maxOp.SymDiff`, `Mean`, `Norm` (p at least 1) on `reductionInferShape`, with `Eq`/`HadamardProd`/`Broadcast` in the gradient; the library's reductions over axes are assumed | groups of coordinates; local linearity gives derivatives; sums regrouped by place |
| C67 | Alias* | forward and `DoDiff` of one operator node and its input in the lisp machine with derivative tensors by address, `UnbindAll`; other nodes as additions; `reshapeOp.DoDiff` on the first machine | invariants "two tensors" / "one tensor" carried over rounds |
| C68 | Train* | `execOp.exec` with `BindDualValues`, `Node.bind/Value/Grad`, `VanillaSolver.Step` on scalars, `RunAll`/`Step`/`Reset` loops, values by address; registers left out (C09, C50) | a run only allocates, a step writes to weights and their own derivatives: invariant over instructions, then rounds |
| C69 | ConvGrad* | the gradient nodes of `Conv2d`: those of `Transpose`, `Reshape`, `matMul` and `Im2Col` composed | adjointness of the parts (C16, C21) put together by reindexing sums |
| C70 | Tdot* | `Tensordot` with all checks, `tensordotOp.InferShape`, `Do` (library contraction assumed), `SymDiff`, `contains`, `sortUniqueIntWithImitator`; `DoDiff` is C78 | the pattern is the inverse of (co-sorted axes, free axes); sums over pairs of coordinates reindexed |
| C71 | Ewise* | `elemBinOp.InferShape`, `Do`, `SymDiff`, the five `…DiffExpr` functions on shapes and real values | partial derivatives, a lemma lifting an entrywise function of one operand to its gradient, sums for scalars |
| C72 | Ewise* | `elemBinOp.DoDiff`, `UnsafeDo`, `IncrDo`, `tBinOp.IncrDo/do`, `newEBOByType`, `ExternalOp.Do`, the five `…Diff` functions on scalars and lists of entries, which operand is overwritten in place | every case computed on tables of entries |
| C73 | ByIdx* | `newByIndicesOp`, `ByIndices`, `byIndicesOp.InferShape`, `Do`, `SymDiff`, `DoDiff`, `byIndicesOpDiffOp.checkInput`, `Do` (the library's gather and scatter-add assumed) | sums over coordinates reindexed along the axis; the failure by the number of values handed over |
| C74 | SumAuto* | `sumOp.DoDiff` including the reshaping of the output's derivative in place | induction over the axes for the repetitions; reuses C60 |
| C75 | LinAlg* | `Mul`, `OuterProd`, `BatchedMatMul`, `Div` (choice of operator), `linAlgBinOp.InferShape`, `do` with one tensor as both operands | case analysis on shapes; reuses C16, C41 |
| C76 | LinAlg* | `matMulDiff`, `vecDotDiff`, `matVecMulDiff`, `outerProdDiff`, `batchedMatMulDiff`, `linAlgBinOp.IncrDo` with derivatives stored per node | two increments on a store, fold over the batches |
| C77 | BatchNorm32* | the float32 branches of `batchNormOp` (`f32s`) and their difference from the float64 ones | equality with the float64 model; the gradient after training and switching computed channel by channel |
| C78 | TdotAuto* | `tensordotOp.DoDiff` for each operand with the scalar branches and the ignored error of the final addition | equality with the symbolic gradient of C70 through the inverse permutation |
| C79 | PwGrad* | `Backpropagate` and the lisp machine's backward pass along a tree of pointwise operators | induction over the expression with the chain rule for two arguments |
| C80 | Act* | `BinaryXent`, `LeakyRelu`, `Rectify`, `Mish`, the constant oneMore, infinities and NaN | stabilisation lemmas of C18, C79, Flocq's rounding |
| C81 | Rand* | `UniformRandomNode`, `GaussianRandomNode`, `BinomialRandomNode`, unnamed inputs; the printer of the operator and the hash function are arbitrary | corollaries of C01 for labels that differ only in what inputs do not hash |
| C82 | Apply* | `ApplyOp`'s choice of graph, `AllSameGraph`; two graphs sharing nodes for the damage | characterisation of the two scans; a computed witness |
| C83 | Apply* | `Concat(axis, ns...)`, `WithChildren`, `fixChildren` over arrays the program can write to | invariant over all actions: an array nobody writes keeps its content |
| C84 | NormHash* | the hashes of `BatchNormOp` and `GroupNormOp`, the operator objects `BatchNorm` returns | C01, injectivity of the printed form, C28 and C62 for the values |
| C85 | Type*, NodeShape* | `inferNodeType`, `ApplyOp` with `WithShape` and `fix`, the `Type` and `InferShape` methods of the elementwise, reduction, linear algebra and tensor operators, `Mul`, `Concat`, `Reshape`, `ConvType`, `DiagFlat` on types and shapes; `hm.Unify` and `Shape.S` (library) assumed | unification of ground types with patterns computed; case analysis; links to the shapes of C60-C75 |
| C86 | Yolo* | `yoloOp.Do` outside training with `evaluateYOLO_f32`, `InferShape`: dense tensors as row-major numbers, reshape, transposition and in-place operations on slices (library, assumed); exact rationals, any sigmoid and exponential | index arithmetic of the regrouping, induction over the loop over cells |
| C87 | Yolo* | `yoloOp.Do` in training, `prepareOutputYOLO_f32`, `getBestIOU_f32`, `getBestAnchors_f32`, `rectifyBox_f32`, `iou_f32`, the losses; the float64 twins are textually the same but never called | counting of pixels for the overlap; induction over targets and writes |
| C88 | Gpu* | the CUDA engine's binary, scalar and comparison methods, `ElemGridSize`, `calcBlocks`, the check functions, `unaryCUDADo`, the kernels' thread numbering; device memory as a function from buffer and place to a number; a launch runs the threads in any order; HasNaN/HasInf, linear algebra on the device and the overflow of C integers are not modelled | permutation of threads by induction; arithmetic of the grid |
| C89 | Bind* | `Let`, `UnsafeLet`, `WithValue`, `WithGrad`, `bind`, `bindCopy`, `unbind`, `UnbindAll`, `UnbindAllNonInputs`, `Clone`, `Value`, `Grad`, `returnDV`, `returnValue` over objects with identity; `tensor.ReturnTensor` and the reuse of its tensors (library) assumed, the pool has room | case analysis; induction over the nodes unbound |
| C90 | NodeOpt* | `WithShape`, `WithValue`, `WithName`, `newNode`, `NewUniqueNode`, `returnNode`, `NewTensor`, `NewConstant` with shapes as slices by pointer; `BorrowInts`/`ReturnInts` (library) assumed, any choice of the pool; input nodes of one dtype, no hash collisions | invariant (no slice in use is in the pool, shapes equal hashed shapes) by induction over constructions |
| C91 | Values* | `CloneValue`, `ZeroValue`, `Copy`, `ValueEq`, `ValueClose` with the scalar and tensor comparisons behind them, `dualValue.SetDeriv`, `clone0`, `dvUnit`, `dvUnitVar`, `dvUnit0`, `dvBind`, `dvBindVar`, `dvBind0`, `dvBindVar0`, `ScalarAsTensor`, `hasNaN`, `hasInf` over a memory of entries; operators are arbitrary functions on memory; the dense tensor's own `Clone`, `Zero`, `Eq` (library) assumed | what a value stands for is a relation between memory and plain data; frame lemmas for disjoint memory |
| C92 | Watch* (with Tape*, Values*) | the loop of `tapeMachine.runall` with the three watches, `lispMachine.forward`'s NaN check, `hasNaN`/`hasInf` | induction over the instructions; for compiled programs by the invariant of C09 and the register lemmas of C44 (no other node gets the register of an input or constant) |
| C93 | Keep* (with Broadcast*, ShapeGrad*) | `KeepDims` over the models of `Shape.Eq` and `Reshape` | when the library's `Eq` holds, then row-major positions with axes of size one added |
| C94 | Keep* | `ReduceAdd`, `ReduceMul` over an arbitrary operation and arbitrary options | induction over the list |
| C95 | Keep* | `GlobalAveragePool2D` (`InferShape`, `Do`), exact numbers | the nested loops as double sums |
| C96 | CudaLin* | `Engine.checkThreeFloat`, `MatVecMul`, `MatMul`, `Outer` (cuda/linalg.go), `linAlgBinOp.CUDADo` for matrix products; cuBLAS gemm, gemv, ger by columns with leading dimensions, tensors with strides and flags | one lemma on gemm, then each of the eight layouts by arithmetic on positions |
| C97 | Device* | `dataflow.analyzeDevice`, `insertDeviceInstr` (index arithmetic on the growing list included), `ExternalOp.DetermineDevice`; nodes reduced to whether the op can run on a card, the device and the children | invariant of the loop over the list; the inner loop by induction over the children |
| C98 | Weight* | every `InitWFn` maker and the functions behind them (weights.go) except the Binomial ones; generators of go_rng as arbitrary sequences of draws per seed | squares of the deviations by `sqrt_sqrt`; the set of panics case by case |
| C99 | Nodes* | the type `Nodes` (collections.go) except Format and dimSizers, with arrays, offsets, lengths and capacities; `append` with any growth; xtgo/set by contract | places of memory compared one by one (`nth`) after each store |
| C100 | Func* | `CompileFunction` on top of the models of ExactSubgraphRoots (Graph*) and of the compiler and tape machine (Tape*); Sort as a section variable | membership through C48; values carried along the embedding of the subgraph, then C09 |
| C101 | Cvt* | `ConvType` and `dtConvOp` (op_types.go): construction, Do, UsePreallocDo, SymDiff; Go's conversions by contract (truncation below 2^63, exact up to 2^53/2^24) | entry by entry with `Forall2`; a lawful conversion is exhibited |
| C102 | Trn* | `StandardEngine.Transpose` (engine.go:13-59) for both float types; the iterator and strides of the tensor library written out | positions of the iterator by induction on the axes, then memory place by place |
| C103 | Xfer* | `ExternMetadata.Get/Put/Transfer`, `ValueOnDevice`, `GradOnDevice` (cuda.go), `makeValueFromMem`, `calcMemSize` (values.go); copies are queued and carried out by a flush; Signal flushes if the channel is there, over all histories of init and initFail; the allocator by contract | the flush of a queue commutes with what does not touch it; memory block by block |
| C104 | AtSpec, AtProps, Tape* | at nodes in the compiler and the tape machine of C09 (`TAt`: a statement without an instruction, register 0) | any program made for a graph with At nodes is the program of the graph whose uses of At are uses of the first node (`codes'`), to which C09 applies; induction over histories for the missing value; a witness graph for the refutation. Not modelled: the lisp machine, whose statements other than Read do nothing, so that a user of the node panics (vm_genera.go:415) |
| C105 | Lift* | CheckOne, Err, LiftResult, TransformResult, Lift1, Lift2 (Lift1Axial and Lift2Broadcast are the same with extra arguments), NodesFromInputs (ermagerdmonards.go); the dynamic types behind Input as a sum, the users' Mk methods as parameters, errors as causes with wrappers | induction over programs against a direct evaluator; induction over chains for the users' types |
| C106 | Fast* | _inversef64, _inversef32, _tanhf32, _tanhf64, _sigmoidf32, _sigmoidf64, SetOptimizationLevel's levels (math_fast.go); the bits of floats exactly, the arithmetic on numbers in exact reals | the guess from the bits by case on the borrow of the mantissa, the refinement by induction (each step squares the error), polynomial inequalities |
| C107 | Look* | Inputs, ByName, Constant, Node, Nodes, From, HasEdgeBetween, Edge (graph.go) on the graph of C01; the interface result of Node with its two kinds of nil | from the invariant of graph histories; Constant by what AddNode may do |
| C108 | Rpt* | sizeOp.Do, valueToInt, valuesToInts, intRange, repeatOp.Do, repeatOp.UsePreallocDo (op_tensor.go, utils.go); rounding to 24 and 53 bits; tensor.Repeat on flat entries | induction over the pieces of the entries; rounding by the position of the leading bit |
| C109 | Dot* | Groups (Upsert, Have, Node.Groups with its write to the node), copyGraph into gonum's directed graph (panics on a repeated ID or a loop), generateDotGraph with both maps of clusters and the sort, the label and its escaper; the text gonum writes is not modelled | an invariant over the placed (node, group) pairs gives the contents of every cluster for every visiting order; the escaper by induction over the text cut into "const" and single characters; witnesses for the refuted parts |
| C110 | Flush* (on Tape*) | the maps lastWrites, flushed, queue, allocated of the code generator and the flushes it emits (compile.go, CPU build); a tape machine whose BLAS calls are queued as pointers and worked off at flushes; DoWork runs every queued call (the one of blase is C38) | an invariant over the generated nodes: a queued call is the last writer of its register and not marked flushed; a simulation between the queueing machine and the one of C09, with the separation of memory from C09's invariant; a graph for the refuted part |
| C111 | Hand* | RunAll, runall and collectBLASWork as three goroutines with their channels, enqueue and DoWork of the BLAS in steps, the collectors of other machines, closures and the deferred DoWork; instructions as lists of acts with an error; the lisp machine without failures | invariants over all executions: where everybody is, where each call is, who answers a Signal, a call in the channel is announced; a decreasing measure; schedules for the refuted parts |
| C112 | Det* (on Yolo*) | prepareDetections, nonMaxSupr, ProcessOutput (outputs already float tensors), Rectify of the tiny-yolo-v3 example; sort.Sort a function that permutes and orders | induction over the records and over the sorted boxes; overlap counted in pixels through C87; two dogs for the refuted part |
| C113 | Eng* | Init, doInit, Close, Run, Signal and Memcpy of the CUDA engine as two goroutines with the Mutex and the channels; outcomes of driver, cuBLAS and cuDNN calls chosen by the program; the context's Do and WorkAvailable by their contract (library not in the repository); one calling goroutine | a decidable invariant over all executions, what each returned call may have returned, a decreasing measure; schedules for the refuted parts |
| C114 | Fold* | ParseWeights (after the file is read), the convolutional blocks of NewYoloV3Tiny with their slices of one array, convLayer.ToNode; PrepareData, DenormalizeWeights, PrepareBiases and a layer of version 2; exact rationals, any square root | the loops by induction with the whole memory described at each step; blocks one after another; the folded sum by field arithmetic; small networks for the refuted parts |
| C115 | BfcReset* | Engine.ResetAllocator and bfc.reset over the pool of C30; the order in which the map is read is any permutation of its keys | the invariant of C30 through the releases and the merge; sorted free blocks that add up to the region are contiguous, so the merge leaves one; computed histories for the refuted parts |
| C116 | Flag* | the options of vm.go over the bit sets runFlags, logFlags and watch lists of both machines, NewLispMachine and NewTapeMachine (the compilation of the program is a parameter, formats and engines are numbers), watchedLogf, LastRun, checkRoots, RunAll over the control model of C12 | induction over the list of options bit by bit; invariants of the counters over histories; stepping of the backward loop |
| C117 | Cudnn* | CUDADo and SymDiff of convolution, maxpool, activation and BatchNorm of ops/nn with their alpha and beta; cuDNN is a set of functions on device memory with the documented blending of result and old contents, parameter order as in NVIDIA's interface; the scratch nodes of BatchNorm over the graph model of C01; not dropout | blending computed per element, induction over the runs; uniqueness of derivatives; the repetition lemma of C01 four times |
| C118 | Mnist* | readLabelFile, readImageFile, Load, prepareX, prepareY, pixelWeight and reversePixelWeight of examples/mnist; files are byte lists or not there; floats are SpecFloat with IEEE rounding | induction over the file contents, big endian arithmetic; the 256 pixels by computation |
| C119 | Setup* | lispMachine.init, calcMemSize and ForceCPU of vm_genera_cuda.go, tapeMachine.init of vm_tape_cuda.go, ExternMetadata.init/initFail/cleanup, sizes reserved by Engine.doInit, dataOn through newNode, Clone, analyzeDevice and ForceCPU; the driver is a parameter, int64 unbounded, loading of the kernels left out | induction over the nodes, the cards and the history of the graph |
| C120 | Dv* | `execOp.exec` of CUDA builds from the binding of the result on: filter, `dvUnit`, host addition, the three queued calls per card; worker and program goroutine as a state machine with any interleaving | invariant over all runs: the pending blocks of a queue, executed, give the sum; witnesses for the losses |
| C121 | Tp* | `codegenerator.gen` with its cases for arguments, Let, Read, device transports and operations, and the sets deciding about flushes; registers are an input | invariant over the generated code: pending transports are never counted as flushed, the generator's last writers are those of the code; witness for operations |
| C122 | Par* | `runInParallel` as a machine: spawning loop, wait group, goroutines as trees of single loads and stores; the callbacks of batch and group normalisation with open arithmetic | invariant: running what is left one after the other gives the memory of the plain loop; the cells used by each callback computed from the index formulas |
| C123 | CtcPar* | the two callbacks of the CTC loss as trees of single loads and stores, with the index formulas of the sections and of the gradient seen with swapped axes; arithmetic open | the cells used computed from the formulas (rows packed with the sample's own width stay inside the section), then C122_apart's lemma |
| C124 | Vocab* | `OneHotVector`, `initVocab` (map order left open), `maxSample`, `makeTargets` on the matrix of `prepareY` with the float64 constant 0.9 | the map loop by induction; rows of the matrix cut out by index; refutations by text with a marker, a second call and a label of 11 |

## What is not modelled

* Floating point rounding (the kernels are treated over exact reals, CTC with the
  infinities and NaN), overflow of `int`, float32 copies of kernels (they are
  textual copies of the float64 ones).
* The tensor library: strides, views, engines, iterators, masked and lazy
  variants.  A tensor is a row-major list or a function of coordinates.
* CUDA and OpenCL back ends, apart from the allocator `cuda/bfc.go` (C30), the elementwise
  dispatch (Gpu*), the linear algebra of the engine (CudaLin*), the assignment of devices
  (Device*) and the transfer of values (Xfer*); the kernels and the driver are contracts.
* `debugger`, `encoding`, most `examples`, `cmd`, the type system of `hm`, serialisation
  (gob, dot, csv), the text of log lines.
* Memory pools and `returnNode`/`returnTensor` (apart from removals that matter
  for C19), `runtime.SetFinalizer`, garbage collection.
* Random number generation: random streams are arbitrary lists.
* Data races outside x/vm and blase: the other machines are single threaded.

## Findings

Behaviour of the code that contradicts its documentation or what a user expects;
each is a theorem (usually `…_refuted`) of the property named.

* C02 graph merges different operators: LogSoftMax/SoftMax, sparsemax axes,
  dropout probabilities, dilations of im2col, bottom paddings of max pooling, CTC
  reductions, slices 256 apart.
* C04 `Node(id)` after `RemoveNode` returns other nodes.  C05 `Roots` is cached and
  goes stale; a repeated `Read` removes a root.  C06 `Edges` runs in the opposite
  direction of `HasEdgeFromTo`.  C07 constants are shared by name across types.
* C10, C50, C52 in-place reuse: `Reshape` lets a run overwrite the caller's input,
  `Value()` of an intermediate node is a later node's value, `Set(b, x+b)` writes
  over `x`.  C51 equal 32-bit hashes silently drop a computation.
* C12 after `Reset` the lisp machine executes only the last node.
* C14 wrong derivative rules (log2, inverse square root).  C16 outer product.
  C43 automatic gradients of Min/MaxBetween.  C42 `concatOp.DoDiff` ignores the
  axis; `repeatOp`.
* C19 stabilisation rewrites or removes nodes other expressions use.  C20
  `LogSumExp` adds the maximum inside the logarithm.
* C21 automatic gradient of Im2Col overwrites.  C22 filter shape unchecked.  C23
  four-value padding shifts by the wrong sides; empty windows panic.  C24 average
  pooling divides by the input width; `AveragePool1D` is max pooling.
* C26 sparsemax along axis 0.  C27 dropout gradient divides by p.  C28 evaluation
  gradient uses the zeroed batch variance; preallocated buffers replace the input.
  C29, C55 sign of the empty target's loss, gradient by the wrong variable.
* C30 merging leaves stale back links and panics.
* C31–C33, C58 scalars and tensors differ; no memory for scalars; AdamW never
  updates; AdaGrad ignores its options; grown models panic.
* C34 axes above four alias.  C35 `BlocksWithZero` off by one.  C39 scalar nodes not
  size checked, argument slice overwritten.  C59 `Unconcat` loses axes.
* C37 constant tensors and the empty graph hang x/vm; operators of arity 0 are never
  run; concat panics.  C38 lone BLAS calls are never executed.
* C45 `Grad` returns nil, nil for other dtypes.  C47 second differentiation returns
  the first one's gradients.  C48 `Subgraph(n)` lacks n's operands.  C49 roots of a
  clone.  C54 kernels larger than the image accepted.
* C61 group statistics are wrong from 264 values per group on (m1 passed for m2).  C62
  `GroupNormOp.DoDiff` ignores the output's gradient; left-over channels stay 0.
* C63 `SoftMax` of a column without an axis: the gradient goes along the other axis.
* C67 after the first lisp machine the gradients through `SoftMax` and `GroupNorm` are wrong:
  output and input share one derivative tensor; `reshapeOp.DoDiff` discards what the input
  had accumulated.
* C68 without `BindDualValues` a weight whose gradient is the constant one moves once (Step
  zeroes the process-wide constant), and of two weights with one gradient node the second
  never; `BindDualValues()` panics depending on the order.
* C57 Barzilai-Borwein divides 0 by 0 when two gradients in a row agree, fails half-way on
  scalars, and crashes for good after a first Step with a missing gradient.
* C70 the symbolic gradient of `Tensordot` is refused when unit axes make a shape look like
  a scalar (a matrix with one row times a vector).
* C77 float32 BatchNorm in evaluation mode divides the gradient by the deviation of the last
  training batch.  C78 the automatic gradient of `Tensordot` for tensors of unit axes with
  different numbers of axes is silently lost.
* C80 BinaryXent's constant 1 + 1e-16 is 1 and defeats the stabilisation: infinite or NaN loss
  for logits above 19; Rectify and Mish of -Inf and LeakyRelu of both infinities are NaN.
* C71 a vector combined with a column is handed a gradient shaped like the column.  C72 with
  the lisp machine a scalar combined with tensors more than once gets a wrong gradient (its
  former derivative is counted once per entry); a tensor to the power of a scalar fails.
* C73 the automatic gradient of `ByIndices` always fails (its operator is handed two of three
  values).  C76 so does that of `OuterProd`.
* C75 misfitting operands of `Mul` (m-by-n matrix with a vector of m, vectors of different
  length) and of `BatchedMatMul` are only noticed when run; a matrix product with one
  transposed operand is wrong if both operands are the same tensor.
* C81 random inputs of one dtype and shape are one node: the second request's distribution is
  ignored.  C82 a constant of another graph as first argument makes the node in that graph and
  breaks the other.  C83 reusing a slice passed to `Concat` changes the node made from it.
* C84 a second `BatchNorm` or `GroupNorm` of a node with another epsilon is the first one, and
  the operator it returns controls nothing.
* C85 `Sum`/`Max` with an axis named twice, a slice with a step that leaves one entry, `Add` of
  [1] and [1,1], `Reshape` of a `NewVector` of shape (n,1) panic; `DiagFlat`'s type is nested, so
  its result cannot be combined with other matrices and its `Sum` panics.
* YOLOv3 (C86, C87): the masks never choose an anchor (op_yolo.go:166, 198 use the loop index);
  `Do` reshapes and overwrites its input although `OverwritesInput` is -1; more than one image
  fails when run; in training the numbers are regrouped twice, rectangles have height and width
  exchanged, losses are written from place p instead of p*(5+classes), and the class of target i
  is read from `target[i]` instead of `target[5*i]`. The operator has no derivative either.
* CUDA (C88): `WithReuse(b)` for `a op b` computes `a op a`; `WithIncr`, documented as an error,
  overwrites; tensors that need more than one row of blocks are computed incompletely or not at all,
  without an error.
* `math_fast.go` (build tag fastmath) lacks `_inverseSqrtf64/32`, which
  operatorPointwise_unary_const.go:29 uses: with that tag the package does not compile. It is not
  modelled; its sigmoid, tanh at 0 and `_inversef32` are wrong as well.
* C89 `Let` of a Go number is unchecked, `Let` of a node does nothing, `WithValue`/`WithGrad` do not
  compare sizes and `WithValue` may reshape the caller's tensor; `UnbindAll` hands the caller's own
  tensors and those of constants to the library's pool, a tensor bound twice twice.
* C90 constructing a node twice with the same `WithShape` option zeroes its shape; doing so with
  `WithValue` and no shape zeroes the caller's tensor's shape; `NewConstant(t, WithShape(...))` has
  shape (0, ..., 0) in a slice that is also in the library's pool.
* C91 `ValueEq(nil, x)` panics, `ValueEq(x, nil)` is false; of two dual values one of which has no derivative
  one order panics; a scalar NaN equals itself but not its clone; `ValueClose` takes float tensors of
  different shapes as close and panics on dual values; `dvBind0` on a dual value whose value and
  derivative share memory wipes the result; `dvBindVar0` does not fall back to `Do` and keeps an old
  derivative of int tensors.
* C92 `WithInfWatch` does nothing on the lisp machine; `WithNaNWatch` does not see the first node (a constant
  or random one) and panics when an operator gives an int or bool scalar; `WithPointerWatch` reports
  correct programs that work in place.
* C93 `KeepDims` returns a vector for a column or row as it is (`Shape.Eq` calls them equal): `KeepDims(a, false, Sum along 1)` of a 3×1 matrix has shape (3), of a 3×2 matrix (3,1).
* C94 `ReduceAdd`/`ReduceMul` ignore the options for a single node and give them (e.g. a name) to every intermediate node; for no nodes they return nil without an error.
* C95 `globalAveragePoolOp` has no gradient, symbolic or automatic.
* C96 on CUDA: matrix products ignore strides (views give wrong numbers), the order of the result tensor is not looked at, a vector's step is fixed to 1, `Outer` into a column-order tensor adds to its contents (BLAS ger has no beta) and silently does nothing for other element types; a failing `Outer` leaves its first operand reshaped; transposing one operand of x·x transposes both.
* C97 `ExternalOp.DetermineDevice` always fails (`allSame` is never set to true). `insertDeviceInstr` keys transports by source only, so with two cards a node would read the transport to the wrong card (only card 0 is assigned at present).
* C124 (refuted parts) `initVocab` appends to the global `vocab`: a second call, or text containing 0x02 or
  0x03, leaves runes at two positions, and `vocabIndex` gives the later one. `makeTargets` skips rows without a 0.9, so
  the targets behind such a row belong to other rows.
* C122 (refuted part): not a fault of the code; it shows that the condition on the callbacks is
  needed.  That the loops of batch and group normalisation can be treated as plain loops in C28
  and the group norm properties was a simplification before and is now proved.
* C121 (refuted part): the code generator counts a node that calls the card or the BLAS as
  flushed once it flushes for one of the node's operands, although the node's own instruction
  comes after that flush (compile.go:383-389 before 393-462).
* C120 (refuted part): when a node gets one gradient on a card and another on the host (or on another card), the host's addition can fall between the copy to the card and the copy back and is then lost; nothing orders them.
* C120: in CUDA builds a gradient whose node has no value yet is skipped silently (`if src.boundTo != nil`, vm_tape_cuda.go:161); without CUDA the same program panics in `dvUnit`.
* C46 (refuted part): the softplus kernels are not monotone. They return x above 16 (float64) and 14 (float32) and ln(1+exp x) up to there, so the result steps down by ln(1+exp(-16)), about 1.1e-7, which is some 10^7 units in the last place of a float64. (For float32 the step is about one unit in the last place; rounding is not modelled.)
* C119 In CUDA builds `NewLispMachine` panics when a card is used and cannot be set up: `init` returns the error
  of `ExternMetadata.init` (vm_genera_cuda.go:36-39), so its fallback to the CPU (42-44) is never reached with an
  error, nor after success, when there is at least one engine. `initFail` forgets the engines already made without
  closing them (cuda.go:263-271): their device memory stays reserved.
* C119 `dataOn` becomes a card only in `analyzeDevice`, which only the compilation calls (analysis.go:52-65, 100);
  new nodes are on the CPU (node.go:273). A Lisp machine on a graph that was never compiled therefore never uses a
  card, even if every operation has a kernel; if it uses none it also resets all nodes to the CPU.
* C103 In CUDA builds nothing makes `ExternMetadata.workAvailable` (the `init` of `noextern.go` makes it, that of
  `cuda.go` does not), so `Signal` returns at once and every "synchronous" transfer to the host returns memory that
  has not been written yet.
* C118 `examples/mnist`: readImageFile returns `nil, err` with a nil err for a wrong magic number (the intended
  os.ErrInvalid is commented out), after which Load panics on `M[0]`; nrow * ncol is an int32 product and can wrap to
  zero; reversePixelWeight subtracts 255 where pixelWeight added 0.1 * 255, so no pixel is recovered.
* C117 `ops/nn` on the GPU: Conv2d passes beta = 1, so every run adds to the previous result; SymDiff passes the image
  where the gradient of the image needs the filter and the other way round; BatchNorm passes alpha = 0 and beta = 1, so
  its output and its gradients are never written; BatchNorm layers of equal shape share their running statistics,
  since a node with a scratch operator is not told apart by its name.
* C116 options: ExecuteBwdOnly never backpropagates (the queue is filled only by a forward run of the same machine) and
  yet reports success; LastRun never returns backprop = true, panics after a successful run and names the first node
  instead of the last under ExecuteFwdOnly; WithWatchlist() without a log direction logs nothing on a lisp machine; after
  a failed backward pass RunAll fails once for each instruction that was left and then reports success, without doing
  anything.
* C115 `ResetAllocator`: after a merge that left a stale back link (C30) the reset succeeds but part of the region is
  lost for good; memory still in use by somebody is handed out again.
* C114 tiny-yolo-v3: `convLayer.ToNode` returns `convOut` instead of `biasOut` when the activation is not "leaky", so the
  linear layers before the YOLO layers lose their bias; `iters` repeats a bias over all samples, right for one sample
  only; a weight file that is too short is not noticed while the capacity of the slice suffices; `batch_normalize=0` panics.
* C113 `cuda.Engine`: `Memcpy` never returns (nobody receives from `workAvailable`); `Init` hangs instead of reporting too
  little memory, since the `Close` it calls waits for the `Run` that was not started; `Close` returns nil when cuBLAS or
  cuDNN fails to close (it wraps `e.err`, not `err`, and `Run` cannot set `e.err` before `Close` releases the Mutex) and
  leaves the engine marked as initialised; `Close` hangs if it takes the Mutex before `Run` had it, after a failed batch,
  and on a closed engine.
* C112 `nonMaxSupr` of the YOLO examples sorts by confidence ascending and keeps the first of overlapping boxes, so the
  least confident box suppresses the more confident ones; a box beyond the picture is turned round by `image.Rect` into
  a non-empty rectangle outside of the picture.
* C111 a flush instruction calls `DoWork` in the goroutine of `runall` while `RunAll` may be in `DoWork` on the
  collector's signal: the flush can end before a call that `RunAll` has taken is run, and calls can overtake each
  other (in blase both also append to the same slice). This breaks the assumption of C110 that a flush settles all calls.
  Every tape machine starts a collector on the one channel of the BLAS, so the collector of an idle machine can take the
  signal of a running one, whose `RunAll` then waits for ever once the channel is full. A lisp machine never sets `b`:
  with `Use(blase.Implementation())` its matrix products are never computed and the fourth one blocks.
* C110 the compiler flushes the batched BLAS before a result is used but not before an operand is overwritten: for e = f(x), a = e @ x, d = -e, r = a + d (in this order) the in-place negation changes the operand of the queued product (`C110_operands_refuted`). Read off the same code, not modelled: in the CUDA build a node that calls the BLAS on another device flushes after it has put itself into the queue, so it is marked flushed before it has run; tensordot says that it does not call external code although tensor.Contract multiplies matrices.
* C109 the graphviz export has one edge per pair of nodes, so x - y and y - x look the same, and x * x looks like a unary operation (`C109_edges_refuted`); the escaper leaves bars and backslashes alone and puts a bar after "const" anywhere in a name, so names like `a|b` or `constants` change the record's fields (`C109_label`, `C109_label_refuted`). Read off the same code, not modelled: AveragePool2D names its group "Maxpool" (op_avg_pool.go:20), and MaxPool2D and AveragePool2D write to the groups of the result before looking at the error of ApplyOp (nn.go:372-374, op_avg_pool.go:70-73), a nil dereference when it fails.
* C108 `repeatOp.UsePreallocDo` (op_tensor.go:436-459) has cases for float64 and float32 only when the input has a single entry: for an int or bool tensor of shape (1,1) it returns the preallocated memory unwritten, although Do repeats the entry. `sizeOp.Do` gives the size as a float32 for float32 tensors: 16777217 becomes 16777216.
* C107 `ExprGraph.Node` (graph.go:518-527) returns `g.node(id)` directly, so for an unknown id the result is a non-nil interface with a nil pointer; `From` gives a nil iterator there. `ExprGraph.Constant` looks by value and then lets AddNode look by name: the float32 1 becomes the graph's float64 1.
* C106 `_inversef32` of the fastmath build (math_fast.go:62-71) refines `f` and returns `castUF32(u)`, the unrefined guess: up to 12.5% off (0.75 for 1.5). `_tanhf32`/`_tanhf64` at level 2 have no case for 0 and panic; level 1 exceeds 1 from about 5 on; a level outside 0..2 panics everywhere; `_sigmoidf32`/`_sigmoidf64` are unfinished and give 0. With the tag the package does not even build at this commit: `_inverseSqrtf64`/`_inverseSqrtf32` exist only in math_nooptim.go.
* C105 `resultM` (ermagerdmonards.go:94) embeds Input only: a user's Mker without an Err method is hidden by it, so the second lifted call of a chain no longer calls Mk and gives a plain node. `Err(nil)` and Nodes are Results without an error and without a node: a lifted function gets the nil node.
* C104 `At` of a tensor is a statement (op_tensor.go:68) for which the compiler has no case (compile.go:250-345): it is never executed, gets register 0, and its users silently read the first node of the program.
* C103 `Transfer` to the device one beyond the last panics instead of returning its error
  (`d > len(m.engines)`), from card to card always panics, a scalar of an unsupported dtype
  leaks its block; a transfer to a card takes no snapshot (the host may still write); a
  gradient on another device than its node is returned from there as it is; a value made from
  memory with a dtype (as vm_tape_cuda.go:171 does) is a scalar whatever its shape.
* C102 transposing part of a matrix in place overwrites the rest of the matrix; the two float
  types zero different amounts of it; a float64 tensor without entries panics.
* C101 `ConvType` knows four of the pairs of dtypes; every other pair, also a dtype to itself,
  is built into the graph and fails when run.  Scalars come out as vectors of length 1.
  Gradients pass a truncation unchanged and are themselves truncated on the way to an integer.
* C100 `CompileFunction` panics for a function without inputs (`inputs[0].g`), says nothing if an
  input the outputs need is missing from the list, and does not keep an output alive that another
  output uses: after the run it has the other one's value.
* C99 `Nodes.Difference` and `Intersect` reorder both slices and write into spare capacity of
  the receiver; `Add` twice on one slice with spare capacity loses the first node; `Equals` is
  not symmetric for slices with repetitions; `remove` leaves nil in slices that share memory
  (`AllNodes` returns the graph's own slice).
* C98 `GlorotEtAlU32` calls `GlorotEtAlN64`: `GlorotU` on Float32 gives normal, unbounded
  weights; `HeN` and `HeU` panic on Float32; uniform weights with a gain that is not positive
  panic; weights made at one reading of the clock are equal.
* C64 every tied maximum gets the whole gradient; the gradient of `Max` fails from the
  fifth axis on.  C66 `Norm` with odd p takes no absolute value.

Seen while reading, without a theorem: `execution.go:94-102` runs an external
operator twice when a preallocated value is there; `clampOp.Do` returns nil, nil;
`reductionInferShape` uses size 0 as a sentinel; `CTCLoss`'s `DiffWRT` has five
entries for four inputs; `BatchNormOp.DoDiff` panics; the tape machine's `closureQueue`
is never cleared between runs.

The float32 variants in op_ctc_loss.go, op_group_norm.go, op_avg_pool.go, op_sparsemax.go and
op_nn.go (im2col, col2im, max pooling) are the float64 ones with the types exchanged: one model
over the reals stands for both.  BatchNorm's evaluation mode is the exception (C77).

## Testing the theorems

`seeded/LOG.jsonl` holds one line per wrong program tried: the definition edited,
the edit, the claim it breaks, what failed to prove, and what was tightened.  Lines
without a failed theorem are edits that do not make an English claim false (the note
says why) or that led to a tightened theorem.

## Assumptions per theorem

As printed by `Print Assumptions` for every theorem named in `MANIFEST.json`.

* **Closed under the global context** (556): C01_never_panics, C01_new_node_is_as_asked, C01_nodes_never_change, C01_repeat, C01_same_node_iff, C02_im2col_refuted, C02_maxpool_refuted, C02_merged, C02_slice_refuted, C02_slice_selects, C02_told_apart, C02_what_the_hash_sees, C03_acyclic, C03_bookkeeping, C04_lookup_after_removal, C04_lookup_refuted, C04_lookup_without_removal, C05_first_call, C05_later_calls, C05_refuted, C05_repeated_read_refuted, C06_directions, C06_never_agree, C07_by_name_only, C07_constant_changes_value_refuted, C07_wrong_type_refuted, C08_graphs_are_walkable, C08_walk, C08_walk_roots, C09_at_the_end, C09_every_step, C09_stops_at_first_failure, C09_when_produced, C100_missing_inputs, C100_no_inputs, C100_outputs_refuted, C100_unused, C100_values, C101_do, C101_gradient_to_float, C101_gradient_to_int, C101_other_pairs, C101_round_trip, C101_scalars, C101_to_float, C101_to_int, C101_wrong_from, C102_dense, C102_neighbours_refuted, C102_refused, C102_views, C103_gradient, C103_gradient_elsewhere_refuted, C103_leak, C103_no_snapshot, C103_no_wait, C103_no_wait_zeros, C103_put, C103_refused, C103_round_trip, C103_scalar_from_memory, C103_to_device, C103_to_host, C103_value_on_device, C103_value_waits, C103_value_waits_refuted, C104_never_bound, C104_no_instruction, C104_reads_first, C104_refuted, C104_register, C105_failed, C105_made, C105_no_error_refuted, C105_nodeless, C105_nodes, C105_own_kept, C105_own_lost, C105_own_refuted, C105_programs, C105_result, C107_between, C107_by_name, C107_constant_by_name, C107_constant_found, C107_constant_new, C107_constant_refuted, C107_edge, C107_edges_reversed, C107_from, C107_has_edge_unknown, C107_inputs, C107_node_nil_refuted, C107_unknown, C108_count, C108_counts, C108_no_size, C108_prealloc, C108_prealloc_other, C108_prealloc_refuted, C108_prealloc_skipped, C108_range, C108_repeat, C108_repeat_scalar, C108_size, C108_size_refuted, C108_size_scalar, C109_again, C109_clusters, C109_edges, C109_edges_refuted, C109_escape_clean, C109_escape_reads_back, C109_field, C109_label, C109_label_refuted, C109_subclusters, C10_inputs_untouched, C10_reshape_refuted, C110_batched, C110_operands_kept, C110_operands_refuted, C110_reads_settled, C110_same_program, C111_always_returns, C111_always_returns_refuted, C111_flush, C111_flush_refuted, C111_lisp, C111_order, C111_order_refuted, C111_returns, C111_signal, C112_most_confident_refuted, C112_output, C112_outside, C112_prepare, C112_prepare_panics, C112_rectify, C112_suppressed, C113_close_error_refuted, C113_close_hangs, C113_ends, C113_init_fails, C113_memcpy_never_returns, C113_one_run, C113_orderly, C113_orderly_refuted, C113_results, C114_linear, C114_linear_refuted, C114_network, C114_parse, C114_samples_refuted, C114_too_short, C114_too_short_refuted, C114_v2, C114_zero, C115_reset, C115_still_held_refuted, C115_whole, C115_whole_refuted, C116_after_a_failed_backward, C116_backprop_never_reported, C116_bwd_only_does_nothing, C116_format_and_engine, C116_last_run, C116_lisp_log, C116_lisp_options, C116_lisp_refuses, C116_roots, C116_tape_log, C116_tape_options, C116_tape_refuses, C116_watch_everything_refuted, C117_batchnorms_share, C118_cut_short, C118_cut_short_images, C118_images_round_trip, C118_label_range_refuted, C118_labels_round_trip, C118_load, C118_marks, C118_reverse_refuted, C118_size_refuted, C118_stored_format, C118_weight, C118_weight_increases, C118_wrong_label_magic, C118_wrong_magic, C119_card_needs_compile, C119_cards, C119_closed, C119_compile, C119_cpu_only, C119_falls_back_refuted, C119_force_cpu, C119_gives_back_refuted, C119_lisp_uses_card_refuted, C119_memory, C119_memory_error, C119_no_fallback, C119_tape, C119_untyped, C11_history_keeps_inputs, C11_let_without_reset, C11_reset_repeats, C11_run_again, C120_arrived_refuted, C120_dropped, C120_early_refuted, C120_mixed_refuted, C120_not_listed, C120_sum, C120_two_cards_refuted, C121_allocated_once, C121_flushed_before_use, C121_nothing_between, C121_operation_refuted, C121_to_host, C122_apart, C122_batch_norm, C122_group_norm, C122_shared_refuted, C123_gradient, C123_loss, C124_each_row_refuted, C124_inverse_refuted, C124_one_hot, C124_targets, C124_unknown, C124_vocab, C12_after_reset_forward_only, C12_after_reset_only_the_last_node, C12_backward_half_after_the_error, C12_backward_only, C12_error_names_the_next_node, C12_first_run_is_complete, C12_second_run_does_nothing, C16_batched_adjoint, C16_matmul_adjoint, C16_matmul_automatic, C16_matmul_forward, C16_matvec_adjoint, C16_outer_nonsquare_refuted, C16_outer_refuted, C16_vecdot_adjoint, C17_cut_off, C17_grad_rejects_independent_input, C17_succeeds, C17_sum_over_all_paths, C17_unreachable_rejected, C19_log_of_one_plus_x, C21_adjoint, C21_automatic_gradient_accumulates_refuted, C21_automatic_gradient_overwrites, C21_im2col_entries, C22_conv2d_is_the_convolution, C22_filter_shape_unchecked, C23_MaxPool1D, C23_empty_window, C23_four_paddings_shift_by_bottom_and_right, C23_four_paddings_shift_by_top_and_left_refuted, C23_gradient_is_the_adjoint, C23_max_of_each_window, C24_AveragePool1D_averages_refuted, C24_AveragePool1D_is_max_pooling, C25_gradient_is_the_adjoint, C25_upsample_repeats_each_pixel, C30_allocated, C30_calm_conserves, C30_coalesce_refuted, C30_first_fit, C30_never_overlaps, C34_auto, C34_expands, C34_fifth_axis_refuted, C34_pattern, C35_bitmap, C35_blocks, C35_blocks_refuted, C36_programs, C37_always, C37_cancel, C37_constant_refuted, C37_empty_refuted, C37_error, C37_negative_arity, C37_nullary_refuted, C37_result, C38_dead_refuted, C38_dgemv, C38_lone_refuted, C38_never_refuted, C38_order, C38_pair, C38_panic_refuted, C39_refused, C39_reshape, C39_reuse_refuted, C39_scalar_refuted, C40_bad, C40_compose, C40_gradient, C40_round_trip, C40_scalar_refuted, C40_transpose, C41_batched_product, C41_batches_visited_once, C42_concat, C42_concat_auto, C42_concat_auto_axis_refuted, C42_concat_auto_narrow_refuted, C42_repeat_auto, C42_repeat_auto_one_refuted, C42_repeat_auto_single, C42_repeat_many_refuted, C42_repeat_one, C44_live_range, C44_reuse_after_last_use, C45_supported_cost_is_backpropagated, C45_unsupported_cost_gives_no_error, C47_second_gradient_is_the_first, C47_second_gradient_refuted, C48_exactSubgraphRoots, C48_subgraphRoots, C48_subgraph_of_one, C48_subgraph_refuted, C48_subgraph_roots, C49_clone_is_a_copy, C49_clone_parents, C49_clone_roots, C49_clone_roots_refuted, C49_next_id_of_the_clone_is_new, C50_value_of_intermediate_refuted, C51_collision_refuted, C52_set_refuted, C54_kernel_larger_than_the_image, C54_output_size, C59_gradient, C59_slice, C59_unconcat, C59_unconcat_along_refuted, C59_unconcat_narrow_refuted, C60_broadcast_lower, C60_broadcast_same, C60_sum, C69_conv2d_gradient, C69_forward_and_gradient, C70_accepts, C70_all_shapes_refuted, C70_gradient, C70_shape, C70_unit_operand_refused, C70_unit_output_refused, C70_value, C72_scalar_exponent_fails, C73_automatic_fails, C73_axis_panics, C73_gradient, C73_index_refused, C73_value, C74_sum, C75_batched, C75_div, C75_mismatch_accepted_refuted, C75_mul, C75_refused, C75_run_only, C75_same_operand_refuted, C76_batched, C76_matmul, C76_matvec, C76_outer_fails, C76_vecdot, C78_gradient, C78_same_node, C78_unit_axes_lost, C78_unit_axes_lost_refuted, C81_first_operator_stays, C81_input_becomes_random, C81_named_input_is_its_own, C81_one_node_iff, C81_same_shape_one_node, C82_graph_chosen, C82_id_overwritten, C82_other_graph_broken_refuted, C82_right_graph, C82_right_graph_refuted, C83_children_stay_refuted, C83_listed_arguments, C83_slice_rewritten, C83_unwritten_slice, C84_group_norm, C84_group_norm_hash, C85_axis_twice_refuted, C85_concat, C85_diagflat_refuted, C85_elementwise, C85_elementwise_crash, C85_every_node_fits, C85_mixed_dtypes_refused, C85_mul, C85_no_such_axis, C85_one_operand, C85_reduction, C85_slice, C85_two_operands, C85_vector_column_refuted, C86_bad_masks, C86_batch_refused, C86_detections, C86_input_destroyed, C86_masks_refuted, C86_masks_unused, C86_not_square, C86_shape_refuted, C87_anchor_cell, C87_best_anchor, C87_best_target, C87_elsewhere, C87_last_target, C87_no_object, C87_overlap, C87_overlap_refuted, C87_own_box_ignored, C87_read, C87_regrouped_twice, C87_second_class, C87_sides_swapped, C87_single_cell, C87_target_losses, C87_training_boxes_refuted, C87_training_output, C87_training_shape, C88_elementwise, C88_in_place, C88_incr_refuted, C88_large_refuted, C88_multiple_refuted, C88_refused, C88_reuse_second_refuted, C88_scalar, C88_scalar_refused, C88_unary, C88_whole_grid_refuted, C89_bind_copy, C89_clone, C89_constants, C89_double_return_refuted, C89_inputs, C89_let, C89_let_node_refuted, C89_let_number_refuted, C89_let_refused, C89_unbind_all, C89_unbind_constant_refuted, C89_unbind_non_inputs, C89_unbind_wipes_refuted, C89_unsafe_let_constant_refuted, C89_with_grad, C89_with_value, C89_with_value_refuted, C89_with_value_reshapes_refuted, C89_with_value_scalar, C90_build, C90_constant_refuted, C90_constant_reused_refuted, C90_constant_two_shapes, C90_history, C90_option_reuse_refuted, C90_value_reuse_refuted, C91_bind, C91_bind0, C91_bind0_no_derivative, C91_bind0_shared, C91_bind0_shared_refuted, C91_bindvar0, C91_clone, C91_clone0, C91_clone_independent, C91_clone_refused, C91_clones_distinct, C91_close_dual, C91_close_kinds, C91_close_scalars, C91_close_shapes, C91_copy_scalar, C91_copy_tensor, C91_eq, C91_eq_missing_derivative, C91_eq_nan, C91_eq_nil, C91_eq_symmetric, C91_fallback, C91_scalar_view, C91_unit, C91_unit_variable, C91_zero, C91_zero_panics, C92_compiled, C92_counter, C92_first_node_refuted, C92_has, C92_has_panics, C92_inf, C92_lisp_error, C92_lisp_nan, C92_lisp_no_inf_watch, C92_nan, C92_nan_finished, C92_panic, C92_pointer, C92_pointer_refuted, C92_same_run, C93_axes_kept, C93_failures_passed_on, C93_more_axes_refused, C93_refuted, C93_sum_of_a_matrix, C93_vectors_slip, C94_left_fold, C94_options_everywhere, C94_when, C95_means, C95_refused, C96_matmul, C96_matvec, C96_operator, C96_other_types, C96_outer_columns_adds, C96_outer_leaves_a_column, C96_outer_rows, C96_refused, C96_result_order_refuted, C96_same_operand_transposed_twice, C96_strided_vectors_refuted, C96_views_refuted, C97_determine_never, C97_determine_refuted, C97_transports, C97_two_cards_refuted, C99_add, C99_add_twice, C99_add_twice_refuted, C99_difference, C99_equals, C99_equals_refuted, C99_index, C99_intersect, C99_remove, C99_replace, C99_reverse, C99_same_graph, C99_set, C99_untouched_refuted.
* **`sig_forall_dec`** (10): C28_set_training, C67_first_machine, C67_later_machines, C67_ordinary, C67_reshape, C67_unbound, C68_all_nodes, C68_derivatives_persist, C84_mode_with_effect, C84_mode_without_effect.
* **`functional_extensionality_dep`, `sig_forall_dec`** (78): C02_dropout_refuted, C02_sparsemax_refuted, C106_inverse32, C106_inverse32_refined, C106_inverse32_refuted, C106_inverse64, C117_batchnorm_writes_nothing, C117_conv_adds, C117_conv_gradients, C117_conv_gradients_refuted, C117_pool_and_relu, C23_forward_then_gradient, C23_refused, C24_average_refuted, C24_divides_by_the_input_width, C24_gradient_adjoint_refuted, C24_gradient_adjoint_with_stride_1, C24_is_the_mean_iff, C26_axis0_refuted, C26_every_row_is_projection, C26_gradient, C26_projection_is_unique, C26_row_is_projection, C26_sparsemax_total, C27_eval_gradient, C27_gradient_right_iff_half, C27_identity, C27_output, C27_prealloc_panics, C27_total, C27_zero_input_refuted, C27_zero_probability_gradient, C31_missing_gradient, C31_vanilla_follows, C31_zero_clip_refuted, C31_zero_weight_refuted, C32_momentum, C32_momentum_scalar_plain, C43_automatic_forgets, C43_automatic_gradient, C43_automatic_gradient_refuted, C43_symbolic_gradient, C43_symbolic_tie, C43_values, C57_best_fit, C57_defined, C57_follows, C57_grown_crashes, C57_quadratic, C57_retry_crashes, C57_same_gradients, C57_scalar, C58_adagrad_ignores_options, C58_last_rate_wins, C58_options, C61_constant_rows, C61_large_rows, C61_mean_refuted, C61_small_rows, C64_derivative, C64_fifth_axis_refuted, C64_gradient, C64_group_sum, C64_ties_refuted, C65_mean, C67_accumulates_refuted, C67_reshape_accumulates_refuted, C68_accumulates, C68_needs_dual_values_refuted, C68_plain, C68_plain_constant, C68_plain_shared, C68_training, C81_first_request, C81_interval_refuted, C84_second_call, C84_small_epsilons, C84_told_apart.
* **`functional_extensionality_dep`, `sig_forall_dec`, `sig_not_dec`** (49): C106_sigmoid_refuted, C106_tanh_exact, C106_tanh_levels, C106_tanh_one, C106_tanh_one_refuted, C106_tanh_panics, C106_tanh_two, C28_evaluation, C28_evaluation_after_toggle, C28_evaluation_gradient_flat, C28_evaluation_gradient_refuted, C28_evaluation_gradient_spatial, C28_normalised, C28_prealloc_ignores_input, C28_reused_buffer_refuted, C28_running_statistics, C28_training_gradient, C28_training_output, C32_adagrad, C33_scalar_crashes, C33_steps_succeed, C33_weights_stay, C56_adam_follows, C56_rmsprop_follows, C58_grown_model_crashes, C62_automatic, C62_automatic_refuted, C62_gradient, C62_large_groups, C62_output, C62_remainder, C77_evaluation_gradient_flat, C77_evaluation_gradient_refuted, C77_evaluation_gradient_spatial, C77_evaluation_keeps, C77_outputs, C84_epsilon_refuted, C84_group_norm_refuted, C98_fixed, C98_glorot_normal, C98_glorot_uniform, C98_glorot_uniform32, C98_glorot_uniform32_refuted, C98_he, C98_same_clock, C98_size, C98_steps, C98_supported, C98_uniform.
* **`classic`, `functional_extensionality_dep`, `sig_forall_dec`, `sig_not_dec`** (80): C02_ctc_refuted, C02_softmax_refuted, C12_reset_recomputes_refuted, C13_automatic_unary_rules, C13_kernels, C13_symbolic_unary_rules, C14_inverse_sqrt_at_one, C14_inverse_sqrt_automatic_refuted, C14_inverse_sqrt_symbolic_refuted, C14_log2_symbolic_refuted, C14_values, C15_automatic_binary_rules, C15_symbolic_binary_rules, C17_grad_is_the_derivative, C18_log, C18_log1p, C18_neg, C18_sub, C19_log_of_chain, C19_log_of_product, C19_log_of_product_refuted, C19_softmax_node_switches, C20_lse_negative_singleton_refuted, C20_lse_positive_max_refuted, C20_lse_right_if_max_zero, C29_empty_target_has_the_wrong_sign, C29_empty_target_refuted, C29_loss_is_the_negated_log_likelihood, C29_zero_length_panics, C46_sigmoid32_cutoff, C46_sigmoid_cutoff, C46_sigmoid_monotone, C46_softplus32_cutoff, C46_softplus_cutoff, C46_softplus_monotone, C46_softplus_monotone_refuted, C53_constant_operands, C53_gradients_accumulate_over_machines, C53_let_keeps_the_gradient, C53_lisp_values_and_gradients, C55_derivative_by_the_log_probabilities, C55_entries, C55_gradient_by_the_input_refuted, C55_gradient_by_the_scores, C55_mean_reduction_refuted, C63_column, C63_column_refuted, C63_gradient, C63_scalar_refused, C63_sums_to_one, C63_value, C66_nan_refuted, C66_norm, C66_odd_refuted, C71_accepted_operands_refuted, C71_gradient, C71_value, C71_vector_and_column, C72_accumulation_refuted, C72_first_use, C72_partials, C72_scalar_first, C72_scalar_second, C72_scalars, C72_tensors, C72_two_uses, C79_automatic, C79_symbolic, C80_logistic_gradient, C80_logistic_infinities, C80_logistic_saturates, C80_logistic_saturates_refuted, C80_mish, C80_mish_infinities, C80_one_more_is_one, C80_rectifier_gradients, C80_rectifier_infinities, C80_rectifier_values, C80_xent_gradient, C80_xent_value.

`sig_forall_dec` and `sig_not_dec` are from `Coq.Reals.ClassicalDedekindReals`, `classic` from `Coq.Logic.Classical_Prop`, `functional_extensionality_dep` from `Coq.Logic.FunctionalExtensionality`.
