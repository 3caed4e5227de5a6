{"id": "C01", "title": "Building the same expression twice gives the same node, and only equal expressions share a node", "statement": "For every history of additions to one graph: repeating a non-constant addition returns the node made the first time and adds nothing, whatever the hash function; if hash codes of different written contents differ, two non-constant additions return the same node exactly when operator bytes (or input name), type, shape and child nodes are the same; a new node is exactly what was asked for; an addition never changes a node already in the graph and never panics.", "quantifier": "every finite history of additions, lookups and root queries, every operator, type, shape and child list, every 32-bit hash function", "why_tests_cant": "Histories and hash functions are unbounded; a test sees a handful of expressions and one hash function.", "anchors": ["graph.go:ExprGraph.AddNode", "node.go:Node.Hashcode", "node.go:Node.WriteHash", "equalities.go:nodeEq", "gorgonia.go:ApplyOp"]}
{"id": "C02", "title": "Operators whose parameters are left out of the hash are merged although they compute different things", "statement": "Whatever hash function is used, adding the second of each of these pairs to a graph holding the first returns the first node although the two denote different functions: SoftMax(x) and LogSoftMax(x); Sparsemax along different axes; Dropout with different probabilities; Im2Col with different dilations and equal output shape; max pooling with different paddings on the side the hash leaves out; CTCLoss with Mean and Sum reduction; slices x[a:b] and x[a+256k:b+256k].", "quantifier": "every hash function, every graph state in which the first node is present and unshadowed, every input node of suitable shape, every k", "why_tests_cant": "The failure depends on pairs of calls in one graph and holds for every hash function; per-operator unit tests build one call per graph.", "anchors": ["graph.go:ExprGraph.AddNode", "equalities.go:nodeEq", "op_softmax.go:softmaxOp.WriteHash", "op_sparsemax.go:sparsemaxOp.WriteHash", "op_dropout.go:dropoutOp.WriteHash", "op_nn.go:im2colOp.WriteHash", "op_ctc_loss.go:ctcLossOp.WriteHash", "op_tensor.go:sliceOp.WriteHash", "op_nn.go:maxPoolOp.WriteHash"]}
{"id": "C03", "title": "Graph bookkeeping stays consistent under every history of additions", "statement": "After any sequence of node additions and edge settings made through the public operations, ids are unique and equal to the position in AllNodes, AllNodes has no duplicates, every child was added before its parent (so the graph is acyclic), Has/Node/AllNodes agree, and To(child) contains a node exactly when child is one of that node's children.", "quantifier": "every finite history of additions from the empty graph", "why_tests_cant": "Invariant over all histories; tests look at fixed small graphs.", "anchors": ["graph.go:ExprGraph.AddNode", "graph.go:ExprGraph.addToAll", "graph.go:ExprGraph.SetEdge", "graph.go:ExprGraph.Node", "graph.go:ExprGraph.From", "graph.go:ExprGraph.To"]}
{"id": "C04", "title": "Looking a node up by id after removals", "statement": "Node(id) returns the node with that id whenever no node has been removed since the ids were last looked up; after a removal it may return a node with a different id, or nothing for a node still in the graph.", "quantifier": "every history of additions, lookups and removals", "why_tests_cant": "Depends on interleavings of lookups (which fill a cache) and removals.", "anchors": ["graph.go:ExprGraph.Node", "graph.go:ExprGraph.RemoveNode"]}
{"id": "C05", "title": "Roots are the nodes nobody uses - on the first call", "statement": "The first call to Roots returns every node that is a child of no other node, and beyond those only single children of statements that no other node uses; a later call returns the answer of the first call even when nodes added since have turned old roots into inner nodes or are themselves roots; making the same Read twice adds no node but takes the node read out of the roots.", "quantifier": "every graph and every history of additions between two calls", "why_tests_cant": "Needs quantification over all histories and over what is added between two calls.", "anchors": ["graph.go:236-256", "graph.go:215-233"]}
{"id": "C06", "title": "Edge enumeration and edge queries disagree on direction", "statement": "For every graph and every pair of nodes, HasEdgeFromTo(a,b) holds exactly when b is a child of a, while Edges enumerates an edge from a to b exactly when a is a child of b.", "quantifier": "every graph built by additions, every pair of nodes", "why_tests_cant": "Relational statement over all graphs.", "anchors": ["graph.go:ExprGraph.Edges", "graph.go:ExprGraph.HasEdgeFromTo", "graph.go:ExprGraph.Edge"]}
{"id": "C07", "title": "Constants are shared by printed name only", "statement": "Adding a constant to a graph returns the first constant of that graph with the same name, whatever its type or value; so adding constants whose default names print alike (1 as float32 and 1 as float64) yields a node of the wrong type.", "quantifier": "every graph history, every pair of constants", "why_tests_cant": "Depends on what else is in the graph.", "anchors": ["graph.go:ExprGraph.AddNode", "gorgonia.go:NewConstant"]}
{"id": "C08", "title": "Graph walking visits every reachable node exactly once, children last", "statement": "Walking from a node of any acyclic graph terminates, emits each node reachable from it exactly once and nothing else, and never emits a node before a node on the walk's stack that led to it first; walking from several roots emits the union, again once each.", "quantifier": "every finite acyclic graph, every start node or list of start nodes", "why_tests_cant": "Termination and exactly-once over all DAG shapes (sharing, diamonds).", "anchors": ["walker.go:walkGraph", "walker.go:walkFromRoots"]}
{"id": "C09", "title": "Compiled programs compute what the graph says", "statement": "For every well-formed graph in dependency order with operators that never hand back their argument's memory, compiling to registers (with in-place reuse of dead registers) and running all instructions leaves, for every node, at the moment it is produced, the value of direct evaluation of the expression, and at the end the register of every node that is live to the end holds that node's value.", "quantifier": "every graph, every operator semantics, every assignment of values to inputs, any number of nodes", "why_tests_cant": "Register reuse bugs depend on liveness over arbitrary graphs.", "anchors": ["compile.go:codegenerator", "regalloc.go:regalloc", "analysis.go:buildIntervals", "vm_tape.go:tapeMachine.RunAll", "vm_tape_nocuda.go:execOp.exec"]}
{"id": "C10", "title": "Running a program does not change the caller's input values, except through aliasing operators", "statement": "If no operator returns its argument's memory, no run writes to the memory bound to an input; with Reshape there is a program (reshape an input, then apply an in-place pointwise operator to the result) whose run overwrites the caller's input.", "quantifier": "every compiled program, every input assignment", "why_tests_cant": "The alias arises only from the interplay of register reuse with operators sharing memory.", "anchors": ["op_tensor.go:reshapeOp.Do", "regalloc.go:regalloc.allocMutableOp", "vm_tape_nocuda.go:execOp.exec"]}
{"id": "C11", "title": "Tape machine: a finished program is not re-run until Reset; Reset makes runs repeatable", "statement": "After RunAll has finished, another RunAll executes no instruction; after Reset, RunAll computes exactly what a fresh machine on the same program and inputs computes.", "quantifier": "every program, every input, any number of RunAll/Reset calls in any order", "why_tests_cant": "Quantifies over call histories and programs.", "anchors": ["vm_tape.go:tapeMachine.RunAll", "vm_tape.go:tapeMachine.Reset"]}
{"id": "C12", "title": "Lisp machine: only the last node is executed after Reset", "statement": "A fresh lisp machine executes every node of the sorted graph in order and then differentiates the differentiable ones in reverse; a second RunAll without Reset changes nothing; after Reset, the next RunAll executes and differentiates only the last node, so the results of all others are stale even after a new Let; the error of a failing run names the node after the failing one, the next RunAll carries on behind it as if it had worked, and the backward half may still run after the error was returned.", "quantifier": "every sorted program, every failing position", "why_tests_cant": "Statement about every program and failing position.", "anchors": ["vm_genera.go:lispMachine.Reset", "vm_genera.go:lispMachine.RunAll", "vm_genera.go:lispMachine.forward"]}
{"id": "C13", "title": "Symbolic unary derivative rules are the derivatives", "statement": "For abs (away from 0), sin, cos, exp, ln, neg, square, sqrt, inverse, cube, tanh, sigmoid, log1p, expm1 and softplus, at every point where the function is differentiable, the expression built by symbolic differentiation evaluates over the reals to incoming gradient times the derivative of the function, and the rule used by automatic differentiation adds exactly that (for log2 too) to the gradient accumulated so far.", "quantifier": "every real point of the domain, every incoming gradient", "why_tests_cant": "Real-valued for-all; tests sample points.", "anchors": ["operatorPointwise_unary.go"]}
{"id": "C14", "title": "The derivative rules of log2 (symbolic) and inverse square root (both) are wrong", "statement": "The symbolic rule for log2 yields gradY*ln2/x instead of gradY/(x*ln2): wrong at every positive x and non-zero gradient. The symbolic rule for 1/sqrt(x) yields -gradY/(2*y^3) instead of -gradY*y^3/2: wrong at every positive x except x = 1. The automatic rule for 1/sqrt(x) leaves the accumulated gradient as it was: wrong at every positive x.", "quantifier": "every x>0 (other than 1 for the inverse square root), every non-zero incoming gradient", "why_tests_cant": "Shows failure at all points, not at one sample.", "anchors": ["operatorPointwise_unary.go:log2DiffExpr", "operatorPointwise_unary.go:inverseSqrtDiffExpr"]}
{"id": "C15", "title": "Symbolic binary derivative rules are the partial derivatives", "statement": "For add, sub, pointwise mul, pointwise div (non-zero divisor) and pow (positive base), the two expressions built by symbolic differentiation evaluate to the incoming gradient times the two partial derivatives, and the automatic rules add these products to the accumulated gradients of two distinct operands.", "quantifier": "every pair of reals in the domain, every incoming gradient", "why_tests_cant": "Real-valued for-all.", "anchors": ["operatorPointwise_binary.go:addDiffExpr", "operatorPointwise_binary.go:hadamardDivDiffExpr", "operatorPointwise_binary.go:hadamardPowDiffExpr"]}
{"id": "C16", "title": "Matrix-product gradients are the adjoints, for every transpose combination and size", "statement": "For matrix product with any combination of transposed operands, batched matrix product, matrix-vector product and vector dot product, the gradient expressions satisfy the adjoint identity against every perturbation of each operand, for all sizes and over any commutative ring; the rule for the outer product does not.", "quantifier": "every commutative ring, every matrix size, all four transpose flags, every operand, gradient and perturbation", "why_tests_cant": "All sizes and rings.", "anchors": ["operatorLinAlg.go:matMulDiffExpr", "operatorLinAlg.go:matVecMulDiffExpr", "operatorLinAlg.go:vecDotDiffExpr", "operatorLinAlg.go:outerProdDiffExpr"]}
{"id": "C17", "title": "Backpropagation computes the total derivative", "statement": "For every acyclic expression graph whose operators' gradient rules are right, Backpropagate on a graph not differentiated before gives each requested node the sum over all paths of products of local derivatives, for every set of cost nodes and any sharing of subexpressions; on graphs of scalar operators the expressions Grad returns evaluate to the derivative of the cost with respect to each input; requested nodes without a path to the cost are rejected with an error.", "quantifier": "every DAG, every local derivative assignment, every requested input", "why_tests_cant": "Sum over exponentially many paths in arbitrary DAGs.", "anchors": ["differentiation.go:Backpropagate", "differentiation.go:forwardDiffAnalysis", "differentiation.go:backwardDiffAnalysis"]}
{"id": "C18", "title": "Numerical stabilisations preserve the real value", "statement": "What Log, Log1p, Sub and Neg build, with stabilisation on (rewriting log(1+a), log(1-a), exp(x)-1, 1-sigmoid(x), log(sigmoid x), log1p(exp x), log1p(-sigmoid x), -(-x)) or off, has over the reals the value of the plain expression wherever that is defined, and is itself defined there.", "quantifier": "every real x where the original is defined", "why_tests_cant": "Real-valued for-all.", "anchors": ["stabilization.go"]}
{"id": "C19", "title": "Stabilising a log can change or destroy other expressions", "statement": "Applying Log to a SoftMax node switches that very node to log-softmax, so every expression already using it changes value; applying Log to 1+x removes the node 1+x from the graph although other nodes may use it.", "quantifier": "every graph containing the node, every other user of it", "why_tests_cant": "Non-local effect on other expressions of the graph.", "anchors": ["stabilization.go:logSoftmaxStabilization", "stabilization.go:logStabilization"]}
{"id": "C20", "title": "LogSumExp", "statement": "LogSumExp is documented as log of the sum of exponentials; as built for a vector it evaluates to log(sum exp(a-max) + max). This is the log-sum-exp if the maximum is 0, is strictly smaller than it for every vector with a positive maximum, and is wrong for every one-element vector between -1 and 0.", "quantifier": "every non-empty real vector", "why_tests_cant": "Real-valued for-all.", "anchors": ["operations.go:LogSumExp"]}
{"id": "C21", "title": "Im2Col and Col2Im are adjoint", "statement": "For all sizes, paddings, strides and dilations, Im2Col writes every column entry as the zero-padded pixel it stands for, and its gradient operator is its transpose: the inner product of Im2Col(x) with g equals the inner product of x with Col2Im(g); every index used by either is within bounds. In automatic differentiation the operator overwrites the derivative bound to the input instead of adding to it.", "quantifier": "every channel count, image and kernel size, padding, stride, dilation; any commutative ring", "why_tests_cant": "All sizes and parameters.", "anchors": ["op_nn.go:im2colOp.f64s", "op_nn.go:col2imOp.f64s", "op_nn.go:im2colOp.retHW"]}
{"id": "C22", "title": "Conv2d is the convolution sum", "statement": "For every image, filter, padding, stride and dilation, the node built by Conv2d evaluates at (b,l,i,j) to the sum over channels and kernel positions of filter times zero-padded image. The filter's own channel and kernel sizes are not compared with the image and the kernel argument: any filter with the same product is accepted.", "quantifier": "all shapes and parameters accepted by Conv2d; any commutative ring", "why_tests_cant": "All sizes and parameters.", "anchors": ["nn.go:Conv2d", "op_nn.go:im2colOp"]}
{"id": "C23", "title": "Max pooling returns the maximum of each window and routes its gradient there", "statement": "With symmetric padding smaller than the kernel and values above the starting value, each output of MaxPool2D is the maximum over the part of its window inside the image, the remembered index is in the window and attains it, and the gradient operator is the adjoint of selecting those elements; a window outside the image leaves index -1, on which the gradient panics; with four-value padding the window is shifted by the bottom/right padding where the documentation says top/left.", "quantifier": "all image and kernel sizes, paddings, strides, values", "why_tests_cant": "All sizes and values.", "anchors": ["op_nn.go:maxPoolOp.f64s", "op_nn.go:maxPoolDiffOp.f64s", "nn.go:MaxPool2D"]}
{"id": "C24", "title": "Average pooling does not average", "statement": "AveragePool2D divides each window sum by the input width; it equals the mean over the kernel exactly when the window sum is 0 or kernel height times kernel width equals the input width. AveragePool1D is max pooling. The gradient operator of AveragePool2D is the adjoint of the forward map for stride 1 without padding, and not in general.", "quantifier": "all sizes and values", "why_tests_cant": "All sizes and values.", "anchors": ["op_avg_pool.go:avgPoolOp.f64s", "op_avg_pool.go:AveragePool1D"]}
{"id": "C25", "title": "Upsampling repeats each pixel and its gradient sums the copies", "statement": "Upsample2D output at (b,c,i,j) is the input at (b,c,i/s,j/s), and its gradient operator is the adjoint, for every scale and size.", "quantifier": "all sizes, scales, values; any commutative ring", "why_tests_cant": "All sizes.", "anchors": ["op_upsample.go:upsampleOp.Do", "op_upsample.go:upsampleDiffOp.Do"]}
{"id": "C26", "title": "Sparsemax is the Euclidean projection on the probability simplex, and its gradient operator is right", "statement": "For every non-empty real row, the output of Sparsemax is non-negative, sums to one and is the unique point of the simplex nearest to the row; where no value lies on the threshold the gradient operator is the transpose of the derivative; with axis 0 the result is not normalised along that axis.", "quantifier": "every row length and real values", "why_tests_cant": "Optimality against all points of the simplex.", "anchors": ["op_sparsemax.go:sparsemaxOp.float64sparseMax"]}
{"id": "C27", "title": "Dropout gradient scales by the wrong probability", "statement": "In training every output entry is 0 or x/(1-p), as the random stream decides; the gradient operator is the gradient of that map for all inputs without zeros exactly if p = 1/2, an input 0 that is kept gets no gradient, out of training the gradient is divided by p although the map is the identity, with p = 0 the gradient is all zeros although the map is the identity, and with a preallocated output the operator panics.", "quantifier": "every probability, random stream, input vector", "why_tests_cant": "All streams and probabilities.", "anchors": ["op_dropout.go:dropoutOp.do", "op_dropout.go:dropoutDiffOp.UsePreallocDo"]}
{"id": "C28", "title": "Batch normalisation normalises and its training gradient is right", "statement": "In training, for every channel the output has mean 0 and mean square var/(var+eps), the running statistics move by the momentum rule, and the gradient operator returns the gradient of the whole map; out of training the gradient is right for flat inputs but uses the zeroed batch variance when the spatial size is above one; with a preallocated buffer the input is ignored in favour of the buffer's contents; leaving training keeps the running statistics and entering it resets them to mean 0 and variance 1.", "quantifier": "all batch, channel and spatial sizes and real values, eps>0", "why_tests_cant": "All sizes and real values.", "anchors": ["op_nn.go:BatchNormOp.f64s", "op_nn.go:BatchNormOp.updateStatsF64", "op_nn.go:batchnormDiffOp.f64s"]}
{"id": "C29", "title": "CTC loss sums over all alignments", "statement": "For every probability table and target sequence, the forward recursion computes the total probability of all label paths that collapse to the target; for an empty target the reported loss has the wrong sign.", "quantifier": "all input lengths, label sets, targets, probability tables", "why_tests_cant": "Sum over exponentially many alignments.", "anchors": ["op_ctc_loss.go:ctcLossOp.f64s", "op_ctc_loss.go:ctcLossOp.getPrimeTarget"]}
{"id": "C30", "title": "The GPU memory pool never hands out overlapping memory, but merging free blocks can make it panic", "statement": "For every sequence of allocations and releases the blocks a caller holds are pairwise disjoint, of positive size, at aligned offsets and inside the reserved region, also after free blocks were merged. As long as every block that is merged is merged with all free blocks behind it, no call panics, free and held bytes add up to the region, and a request is served from the first free block that is large enough. Otherwise merging leaves a stale back link: there is a sequence of seven calls after which one request is served and the next panics with a nil dereference although more than half of the region is free.", "quantifier": "every request sequence, region and alignment", "why_tests_cant": "Depends on long histories of allocations and releases and on where the blocks lie.", "anchors": ["cuda/bfc.go:bfc.alloc", "cuda/bfc.go:bfc.free", "cuda/bfc.go:bfc.coalesce", "cuda/bfc.go:freelist"]}
{"id": "C31", "title": "Vanilla gradient descent follows its formula for every option combination", "statement": "Over any number of rounds of feeding gradients and calling Step, every weight of a model follows w - eta*clip((g + L1*sign(w) + L2*w)/batch), every gradient ends zero and nothing else is written, for scalar and for tensor weights. A node without gradient makes Step fail after the nodes before it were already updated and before any after it. Scalars and tensors differ in two cases: the L1 penalty of a weight that is zero, and a clipping bound that is zero.", "quantifier": "every model whose cells are separate, every option combination with a positive clipping bound, all weights, all gradient sequences; exact real arithmetic", "why_tests_cant": "All options and lists of nodes.", "anchors": ["solvers.go:VanillaSolver.Step"]}
{"id": "C32", "title": "Momentum and AdaGrad keep no memory for scalar weights", "statement": "Over any number of steps the momentum solver moves a scalar weight exactly as plain gradient descent does, whatever the momentum, and AdaGrad scales a scalar by its last gradient only, whereas entries of tensors have a velocity (computed with penalties on the velocity, not on the weight) and an accumulated sum of squares.", "quantifier": "every model, number of steps and gradient sequence, all options; exact real arithmetic", "why_tests_cant": "Any number of steps.", "anchors": ["solvers.go:Momentum.Step", "solvers.go:AdaGradSolver.Step"]}
{"id": "C33", "title": "AdamW never updates a weight", "statement": "However many steps AdamW makes and however they end, every cell that is not a gradient of the model keeps its content, so no weight stored apart from the gradients ever changes; on tensors every Step succeeds and zeroes the gradients, so nothing tells the caller; a scalar weight makes Step panic.", "quantifier": "every model, number of steps, gradient sequence and options; exact real arithmetic", "why_tests_cant": "Any number of steps.", "anchors": ["solvers.go:AdamW.Step"]}
{"id": "C34", "title": "Broadcast patterns and Auto follow NumPy broadcasting up to four axes and alias beyond", "statement": "A pattern built from any sets of left and right axes below four reports exactly those axes; a right axis a with 4<=a<8 is reported as left axis a-4, a left axis a with 252<=a<256 as right axis a-252, and other axes of four and above are lost. Auto stretches two operands of compatible shapes of equal rank up to four exactly as NumPy broadcasting does, every entry of the result being the entry of the operand with the stretched axes clamped to zero; from the fifth axis on nothing is stretched. An operand of lower rank is expanded along the axes of its pattern.", "quantifier": "every list of axes, all shapes and tensors", "why_tests_cant": "All axis lists and all shapes.", "anchors": ["broadcast.go:NewBroadcastPattern", "broadcast.go:BroadcastPattern.on", "broadcast.go:Broadcast", "broadcast.go:autoBroadcastPattern", "operations.go:Auto", "shape.go:calcBroadcastShape"]}
{"id": "C35", "title": "Bitmap is a set of bits", "statement": "For every sequence of Set and Clear calls within range, IsSet(i) reports whether the last call touching i was Set; other bits are untouched; out of range calls panic. BlocksWithZero(n) returns the first word holding more than n zero bits in a row: a run of exactly n is not found, and the bits past the bitmap's size count as free.", "quantifier": "every bitmap size and call sequence", "why_tests_cant": "All histories.", "anchors": ["bitmap.go"]}
{"id": "C36", "title": "Node sets obey set algebra in every program and for every map iteration order", "statement": "For every program of calls on node sets and every order in which Go may iterate over maps, all sets and answers are those of mathematical sets: union, intersection, difference, symmetric difference, subset, superset, equality and membership; the operands are left unchanged by the non-mutating operations.", "quantifier": "all programs, all iteration orders", "why_tests_cant": "All sets.", "anchors": ["node_set.go"]}
{"id": "C37", "title": "Concurrent graph machine: result independent of scheduling", "statement": "For every acyclic graph whose operators have as many children as their Arity says, every execution of the goroutine machine of x/vm, whatever the interleaving and whatever an earlier Run left in the nodes, comes to the point where Run returns; the error is nil exactly if no operator fails on the values of its children, and then GetResult of every node is direct evaluation's value. If Run returns an error some operator fails or the caller cancelled; after a cancellation Run always returns. An operator whose Arity exceeds its number of children (a constant tensor) makes every execution wait forever, an empty graph is never finished even when cancelled, an operator of Arity 0 is never run, and NewMachine panics exactly on a negative Arity (concat).", "quantifier": "every graph, every interleaving, every point of cancellation", "why_tests_cant": "Every interleaving.", "anchors": ["x/vm/machine.go:Machine.Run", "x/vm/node.go:node.Compute", "x/vm/pubsub.go"]}
{"id": "C38", "title": "Batched BLAS calls: order kept, lone calls never executed", "statement": "Whatever the interleaving of calls and DoWork, no queued call is lost, repeated or reordered; when DoWork finds at least two non-blocking calls and at most one left over it executes all of them. A call that is alone when DoWork runs is left in the queue unexecuted, so calls coming one at a time with DoWork after each are never executed; once two calls are left over nothing is ever executed again and further calls make DoWork panic. The queued Dgemv computes the right product for all inputs exactly if the matrix is square.", "quantifier": "every call sequence, every interleaving of producer and worker", "why_tests_cant": "The number of calls that happen to be queued when DoWork runs depends on scheduling; a test sees a few sequences.", "anchors": ["blase/work.go:context.DoWork", "blase/work.go:context.enqueue", "blase/blas.go:context.Dgemv"]}
{"id": "C39", "title": "Reshape infers the missing dimension", "statement": "Reshape of a node with at least one axis to dimensions with at most one negative entry succeeds exactly when the sizes can agree, and then the resulting shape has the node's total size and agrees with all non-negative requested dimensions; more than one negative entry is an error; one negative entry beside a zero panics; the size of a scalar node is not checked; the caller's slice is overwritten with the inferred value, so the same slice used again for a node of another size fails.", "quantifier": "all shapes and requests", "why_tests_cant": "All shapes.", "anchors": ["operations.go:Reshape"]}
{"id": "C40", "title": "Transpose permutes coordinates and its gradient permutation is the inverse", "statement": "For every value with at least one axis and every permutation of its axes (or none given, meaning the reverse order) Transpose moves the entry at idx to the permuted coordinates; two transpositions are the one with composed axes; the pattern used by the gradient is the inverse permutation, transposing back with it gives the input, and both gradient methods are the adjoint. Axes that are no permutation are an error; a scalar without axes panics.", "quantifier": "all shapes, all values, all permutations and non-permutations", "why_tests_cant": "All permutations of all lengths.", "anchors": ["operations.go:Transpose", "op_tensor.go:transposeOp.SymDiff", "op_tensor.go:transposeOp.DoDiff"]}
{"id": "C41", "title": "Batched matrix multiplication visits every batch exactly once", "statement": "The odometer stepping through outer indices visits every index tuple of the outer dimensions exactly once, in row-major order, then stops.", "quantifier": "all outer shapes with positive sizes", "why_tests_cant": "All shapes.", "anchors": ["operatorLinAlg.go:incrSlices", "operatorLinAlg.go:batchedMatMul"]}
{"id": "C42", "title": "Gradient of concatenation and of repetition", "statement": "For every list of values that agree apart from one axis Concat puts them side by side and its symbolic gradient consists of the parts of the gradient belonging to each piece (with its shape), which is the adjoint. The automatic gradient is right along the first axis for pieces at least two wide; along another axis, or for a piece of width one, it silently gives a wrong gradient or none. The symbolic gradient of Repeat is right exactly when the repeated axis had size one (then with that axis dropped, as Broadcast expects); its automatic gradient is right when the axis has two or more entries and may be an error for size one.", "quantifier": "all lists of shapes, all values, all gradients, all repetition counts", "why_tests_cant": "All sizes, ranks and axes.", "anchors": ["op_tensor.go:concatOp.SymDiff", "op_tensor.go:concatOp.DoDiff", "op_tensor.go:repeatOp.SymDiff", "op_tensor.go:repeatOp.DoDiff"]}
{"id": "C43", "title": "Min/Max of two nodes: the symbolic gradient is right away from ties, the automatic one is not", "statement": "The symbolic gradient of MaxBetween/MinBetween gives the whole gradient to the attained operand whenever the operands differ; the automatic one gives it to the other operand (max) or never to the first (min).", "quantifier": "all pairs of distinct values", "why_tests_cant": "All values.", "anchors": ["op_minmaxBetween.go:minmaxSymDiff", "op_minmaxBetween.go:minmaxAutoDiff"]}
{"id": "C44", "title": "Live ranges cover every use", "statement": "For every instruction order, the interval computed for a node starts at its definition and extends to its last use (inputs and constants to the end), so a register is reused in place only after the last use of its old content.", "quantifier": "every node order and dependency structure", "why_tests_cant": "All graphs.", "anchors": ["regalloc.go:buildIntervals", "regalloc.go:interval"]}
{"id": "C45", "title": "Grad reports success with no gradients for unsupported cost types", "statement": "Grad with a cost whose element type is neither Float32 nor Float64 returns neither gradients nor an error.", "quantifier": "every graph and list of inputs with such a cost", "why_tests_cant": "All graphs.", "anchors": ["gorgonia.go:Grad"]}
{"id": "C46", "title": "Cut-offs of sigmoid and softplus: their cost, and where softplus steps down", "statement": "The kernels of sigmoid and softplus return constants or the argument outside a middle range; over the reals the result differs from the mathematical function by at most exp(-19) (sigmoid) and exp(-16) (softplus) for float64 and exp(-15) and exp(-14) for float32, at every argument. The sigmoid kernels never decrease and stay within [0,1]; the softplus kernels are not monotone: they step down at their upper cut-off, and only there.", "quantifier": "every real argument", "why_tests_cant": "Uniform error bound over all reals.", "anchors": ["math_nooptim.go:_sigmoidf64", "math_nooptim.go:_sigmoidf32", "math.go:_softplusf64", "math.go:_softplusf32"]}
{"id": "C47", "title": "A second differentiation on the same graph returns the first one's gradients", "statement": "Backpropagate does not revisit nodes that already carry a derivative: when the requested input and all its direct users were differentiated before, the gradient returned for it is the one stored by the earlier call, for every new cost and every new incoming gradient, so Grad of a second cost can return the gradient of the first.", "quantifier": "every graph, every pair of costs, every set of stored derivatives", "why_tests_cant": "Quantifies over all histories of differentiation calls and all graphs.", "anchors": ["differentiation.go:Backpropagate"]}
{"id": "C48", "title": "Subgraph of one node leaves out what the node is computed from", "statement": "Subgraph(n) holds exactly n and the statements using n, although it is documented as the graph rooted at n; SubgraphRoots holds exactly the nodes reachable from the given roots and the statements using those.", "quantifier": "every graph built by additions, every node, every list of roots", "why_tests_cant": "The contents are characterised for every graph; a test sees one graph.", "anchors": ["graph.go:627-719", "graph.go:736-753"]}
{"id": "C49", "title": "Clone is an isomorphic disjoint copy, except for its roots", "statement": "For every graph, Clone succeeds; node i of the clone has the id, operator, name, type, shape of node i of the original, its children are the clones of the original's children, no node is shared and the original's nodes are unchanged; but if Roots was never called on the original, Roots of the clone is empty for ever.", "quantifier": "every graph built by additions", "why_tests_cant": "Isomorphism and absence of sharing for graphs of every shape.", "anchors": ["graph.go:60-134", "graph.go:236-256", "node.go:831-854"]}
{"id": "C50", "title": "Value() of an intermediate node after a tape run", "statement": "After RunAll, Node.Value() of a node equals its own value only if no later node took over its register; for y = f(x), z = y + b, y.Value() is the value of z, whatever f and the inputs are. Read always delivers the right value.", "quantifier": "every operator f, every input", "why_tests_cant": "Quantifies over all operators and inputs; the sharing comes from register reuse.", "anchors": ["vm_tape_nocuda.go:execOp.exec", "regalloc.go:regalloc.allocMutableOp", "vm_tape.go:readInstr.exec"]}
{"id": "C51", "title": "A node hash collision makes Compile execute only one of the two nodes", "statement": "Although the graph keeps nodes with equal 32-bit hashes but different content apart, the compiler numbers values by hash alone: for any two operators applied to x whose nodes have the same hash, only the first is executed and the register of the second holds the first one's result, without an error.", "quantifier": "every pair of operators, every input", "why_tests_cant": "Needs a hash collision; quantifies over all operator meanings.", "anchors": ["analysis.go:dataflow.vn", "analysis.go:analyze", "compile.go:codegenerator.addNode"]}
{"id": "C52", "title": "Set(b, x + b) overwrites x instead of b", "statement": "For the program y = x + b; Set(b, y); z = x * x, the run writes y over the caller's memory of x, leaves b unchanged, and computes z from the overwritten x, for every meaning of + and * and all inputs.", "quantifier": "every operator meaning, every input", "why_tests_cant": "Quantifies over all operators and inputs.", "anchors": ["regalloc.go:regalloc.allocMutableOp", "vm_tape.go:letInstr.exec", "gorgonia.go:Set"]}
{"id": "C53", "title": "Lisp machine: values and gradients of scalar graphs", "statement": "For every graph of scalar operators (inverse square root excepted) evaluated where its operators are differentiable, RunAll on a fresh lisp machine succeeds, leaves on every node its mathematical value, and adds to the gradient of each input exactly the partial derivative of the sum of the roots; k fresh machines without zeroing leave k times the derivative.", "quantifier": "every scalar program, every execution order in which operands come first, every input vector, every previous gradient, every number of runs", "why_tests_cant": "Quantifies over all programs, all topological orders and all real inputs; the claim is about exact derivatives, which floating point tests only approximate at sample points.", "anchors": ["vm_genera.go:lispMachine.forward", "vm_genera.go:lispMachine.backward", "op_math.go:elemBinOp.DoDiff", "op_math.go:elemUnaryOp.DoDiff", "dual.go:dvUnit"]}
{"id": "C54", "title": "The output size of Im2Col", "statement": "When the dilated kernel fits in the padded image, the output size in each direction is the number of positions, a stride apart, at which it fits. A kernel too large by less than the stride is still accepted with one output, because the division truncates toward zero.", "quantifier": "all image and kernel sizes, paddings, strides, dilations", "why_tests_cant": "All sizes and parameters.", "anchors": ["op_nn.go:im2colOp.retHW", "op_nn.go:im2colOp.InferShape"]}
{"id": "C55", "title": "The CTC gradient operator is the gradient of probability minus posterior, right only behind a softmax with the sum reduction", "statement": "After a forward run, the entry of the CTC gradient operator at (t,b,c) inside the input length is (probability - posterior probability of label c at time t given the target) times the incoming gradient, for both reductions and both target layouts; it is NaN where the probability is zero and -Inf beyond the input length. These numbers are the derivatives of the summed loss by scores behind a softmax; they are not the derivatives by the operator's own input (log probabilities), nor those of the mean-reduced loss.", "quantifier": "all batch, time and label sizes, all targets, all probability tables giving the target positive probability", "why_tests_cant": "The posterior is a sum over exponentially many label sequences; derivative claims range over all real tables.", "anchors": ["op_ctc_loss.go:ctcLossDiffOp", "op_ctc_loss.go:ctcLossOp.Do"]}
{"id": "C56", "title": "RMSProp and Adam follow their formulas", "statement": "Over any number of rounds RMSProp keeps per entry the decaying mean of the squared gradients and moves the weight by -eta*g/sqrt(mean+eps) minus the L2 term, with clipping applied to tensors only; Adam keeps both moments of the penalised, clipped gradient and moves the weight by the bias-corrected ratio, with the number of the Step as exponent, scalars and tensors alike. Gradients end zero and nothing else is written.", "quantifier": "every model whose cells are separate, all options with positive epsilon, rates in range and positive clipping bound, all gradient sequences; exact real arithmetic", "why_tests_cant": "Any number of steps and any options; tests fix one function and a few steps.", "anchors": ["solvers.go:RMSPropSolver.Step", "solvers.go:AdamSolver.Step"]}
{"id": "C58", "title": "Solver options and caches", "statement": "Of several learn rates given to a solver the last one counts, whatever other options stand around it, except for AdaGrad, whose constructor ignores every option. The caches of Momentum, AdaGrad and Adam have the length of the first model: a Step on a model with nodes added afterwards panics.", "quantifier": "every option list, model, number of earlier steps", "why_tests_cant": "All lists of options and all histories.", "anchors": ["solvers.go:WithLearnRate", "solvers.go:NewAdaGradSolver", "solvers.go:Momentum.Step", "solvers.go:AdamSolver.Step"]}
{"id": "C59", "title": "Slice is basic slicing, its gradient is the gradient inside the slice and zero outside, and Unconcat undoes Concat", "statement": "For every value and list of slices of step one Slice gives exactly the entries of NumPy's basic slicing, with axes cut to one entry dropped, and an error when a slice is out of range or there are too many. The gradient of a slicing operator is the adjoint. Unconcat into n pieces gives pieces whose Concat is the input when the pieces and all other axes are at least two wide; pieces of width one lose their axis, and an axis equal to the number of axes panics.", "quantifier": "all shapes, values, lists of slices, axes and piece counts", "why_tests_cant": "All shapes and slices.", "anchors": ["operations.go:Slice", "operations.go:Unconcat", "op_tensor.go:sliceOp", "op_tensor.go:sliceIncrOp"]}
{"id": "C60", "title": "Sum and Broadcast pass on the right gradient for every shape", "statement": "Sum over any distinct axes is the sum of the entries whose remaining coordinates agree, its symbolic gradient copies the gradient along the summed axes and is the adjoint; the gradient through one side of Broadcast (repetitions and reshape) is the adjoint of broadcasting, both for an operand of lower rank and for one with axes of size one.", "quantifier": "all shapes with positive sizes, all axes, all values", "why_tests_cant": "All shapes and sets of axes.", "anchors": ["operations.go:Sum", "op_reduction.go:sumOp.SymDiff", "broadcast.go:Broadcast", "op_tensor.go:repeatOp.SymDiff", "op_tensor.go:reshapeOp.SymDiff"]}
{"id": "C61", "title": "GroupNorm statistics are the mean and variance of the group up to 263 values, and biased above", "statement": "The row statistics of a GroupNorm group with 1 to 263 values are exactly its mean and its variance. From 264 values on the returned mean is never below the true one, and it is strictly above it as soon as two of the group's first 256 values whose positions are congruent modulo 8 differ; only the slice-aliasing in the final merge of the moment stacks causes this. A constant group of any size gives its value and variance 0.", "quantifier": "for all rows of every length", "why_tests_cant": "The number of chunks, the depth of the moment stacks and the order of merges depend on the length; a test checks single lengths, and the shipped tests use short rows, where the faulty merge is never reached.", "anchors": ["op_group_norm.go:163", "op_group_norm.go:221", "op_group_norm.go:244", "op_group_norm.go:258", "op_group_norm.go:287"]}
{"id": "C62", "title": "GroupNorm output and gradient", "statement": "If the channels are a multiple of the groups and a group has at most 263 values, GroupNorm centres every group at its mean and scales it by one over the root of variance plus epsilon, and its gradient operator, given the output's gradient, returns the gradient of that map. Automatic differentiation (DoDiff) instead adds eps*y/(var+eps)^(3/2), independent of the output's derivative. With 264 or more values in a group the group's output sums to less than 0 unless values repeat modulo 8. With channels that are not a multiple of the groups the last batch*(channels mod groups) channels of the output stay 0.", "quantifier": "for all inputs, batch sizes, channel and group counts, image sizes, epsilons and gradients", "why_tests_cant": "The gradient is a limit over every direction and the group layout depends on four sizes; tests compare single examples, none differentiates through DoDiff or uses large groups or a remainder.", "anchors": ["op_group_norm.go:21", "op_group_norm.go:126", "op_group_norm.go:465", "op_group_norm.go:491", "op_group_norm.go:583", "op_group_norm.go:638"]}
{"id": "C64", "title": "The gradient of Max: right without ties, too large with them, missing from the fifth axis on", "statement": "For every tensor of up to four axes and every choice of distinct axes, Max takes the largest entry of each group and its symbolic gradient gives the group's gradient to each largest entry and 0 to the others. For an entry that is not tied this is the partial derivative. Over a group the gradient adds up to the number of largest entries times the group's gradient, so with a tie it is not the derivative in the direction in which all entries grow. Reducing an axis numbered four or more (of size at least two) the gradient is an error although the value is computed.", "quantifier": "all shapes, axes, entries, upstream gradients", "why_tests_cant": "Being the partial derivative is a statement about a limit for every tensor, shape and choice of axes; ties have measure zero in random tests.", "anchors": ["op_reduction.go:98-166", "operations.go:211-225", "broadcast.go:26-129", "shape.go:38-68", "op_math.go:135-183"]}
{"id": "C65", "title": "Mean is the average over the given axes", "statement": "For every tensor with no empty axis and every list of distinct axes (all axes if none is given), Mean returns at every place the average of the entries reduced to it, and its symbolic gradient is the adjoint of this linear map.", "quantifier": "all shapes, lists of distinct axes, entries, upstream gradients", "why_tests_cant": "Tests fix shapes and axes; the count divided by must match the group for every rank and order of axes.", "anchors": ["operations.go:228-257", "operations.go:260-273", "operations.go:364-398", "op_reduction.go:226-255", "operatorPointwise_binary.go:809-829"]}
{"id": "C66", "title": "Norm is the p-norm only for even p or non-negative entries", "statement": "For p >= 1, Norm along an axis is the p-norm of every group if p is even or no entry of the group is negative; for odd p and a group with a negative entry the result is never the p-norm, and for odd p >= 3 and entries none of which is positive it is NaN.", "quantifier": "all shapes, axes, p >= 1, entries", "why_tests_cant": "The claim is about all exponents and entries, including the sign patterns for which no absolute value is taken.", "anchors": ["operations.go:275-322"]}
{"id": "C63", "title": "SoftMax and LogSoftMax: value and gradient along the axis, and the axis a column uses", "statement": "For every tensor with at least one axis, SoftMax and LogSoftMax give the softmax (its logarithm) along the axis meant (the first one given, a negative one counted from the end, otherwise the last), SoftMax's entries are positive and sum to one along every line, and the symbolic gradient is the derivative in every direction. The one exception is a column (n x 1, n >= 2) without an explicit axis: its value is the softmax down the column, but the gradient is taken along the other axis, and with an incoming gradient of ones it is never the gradient.", "quantifier": "all shapes, axes, entries, upstream gradients, directions", "why_tests_cant": "Tests compare a few vectors and matrices; the claim is a derivative in every direction for every shape and axis, and the axis is chosen twice, once for the value and once for the gradient.", "anchors": ["op_softmax.go:13-46", "op_softmax.go:86-129", "op_softmax.go:157-169", "op_softmax.go:262-285"]}
{"id": "C67", "title": "A DoDiff that hands the input's derivative tensor to the output spoils every later lisp machine", "statement": "For an operator node with one input, over any number of new lisp machines on the same graph: if DoDiff leaves the output's derivative alone, an argument's gradient is the sum of all rounds' shares, a computed input's that of the last round, and the output keeps its own gradient. SoftMax's and GroupNorm's DoDiff make the output's derivative the input's tensor: the first machine's input gradient is right but is also reported as the output's; every later machine loses what was accumulated, takes everything added to either node for the output's gradient and leaves it in the input's; UnbindAll then gives away an argument's gradient, or gives the same tensor back twice. Reshape's DoDiff makes the output's derivative tensor the input's: what the input had accumulated before is replaced, what it gets afterwards is added to both.", "quantifier": "all numbers of machines, gradient operators, contributions of the other nodes in any interleaving, initial derivatives, roots or not", "why_tests_cant": "Tests run one machine per graph; aliasing shows from the second machine on and for any interleaving of the users' contributions.", "anchors": ["op_softmax.go:130-154", "op_group_norm.go:464-488", "vm_genera.go:190-202", "vm_genera.go:308-485", "dual.go:112-162", "dual.go:296-362", "values_utils.go:135-163", "perf.go:60-84", "node.go:721-734", "op_tensor.go:1260-1272"]}
{"id": "C68", "title": "A training loop on the tape machine is gradient descent only with BindDualValues", "statement": "RunAll, VanillaSolver.Step and Reset in a loop, on a graph after Grad. With BindDualValues(weights...) the weights after k rounds are the k-th iterate of gradient descent, whatever gradient nodes are shared or constant; without a solver between the runs Grad holds the sum over all runs. Without BindDualValues that holds only if every weight has a non-constant gradient node to itself: if the gradient node is a constant (the seed of Grad, which is one value for the whole process) Step overwrites it with zero, so the weight moves once and never again; of two weights with one gradient node the second never moves. BindDualValues() without nodes panics in the first run exactly if a gradient node is scheduled before the node it is the gradient of.", "quantifier": "all graphs of scalar nodes in any valid order, all operators, weights, learning rates and numbers of rounds", "why_tests_cant": "The claim is about every number of rounds and every shape of graph; a test with one step sees the right weights in all the failing cases but the shared one.", "anchors": ["vm_tape_nocuda.go:113-151", "vm.go:272-287", "node.go:434-455", "node.go:651-679", "solvers.go:899-940", "gorgonia.go:231-242", "const.go:86-98", "dual.go:112-162", "graph.go:177-181"]}
{"id": "C69", "title": "The symbolic gradient of Conv2d is right in image and filter", "statement": "For Conv2d with any accepted sizes, padding, stride and dilation, the gradient nodes that Backpropagate composes from transposition, reshapes, matrix product and Col2Im are defined, have the sizes of image and filter, and are the adjoints of the convolution sum in the image and in the filter.", "quantifier": "all batches, channels, image, filter and kernel sizes, paddings, strides, dilations, values from any commutative ring", "why_tests_cant": "Tests compare a few fixed images; the claim ties four gradient rules with their index arithmetic together for every size.", "anchors": ["nn.go:211-305", "op_nn.go:239-265", "op_tensor.go:897-907", "op_tensor.go:1251-1258", "operatorLinAlg.go:51-101"]}
{"id": "C57", "title": "Barzilai-Borwein follows its recurrence on the vector of all weights, and where it fails", "statement": "On a model of tensors, over any number of rounds, the Barzilai-Borwein solver moves the vector of all weights by minus the learn rate times the gradient; the learn rate is the given one in the first Step and in a later Step the inner product of the changes of point and gradient over the whole model divided by the squared norm of the change of the gradient, bounded by WithClip; unclipped it is the best least-squares fit, and a cost whose gradient is a multiple of the distance from a point is minimised by the second Step. The rate is undefined exactly if two gradients in a row agree, and then the Step computes 0/0. A model with a scalar weight fails in the first Step after the nodes before it have been updated; a model that has grown, or one whose first Step failed for a missing gradient, makes the next Step crash.", "quantifier": "every model of tensors with separate cells, all gradient sequences, all options with non-negative clipping bound; exact real arithmetic", "why_tests_cant": "The rate couples all nodes and consecutive Steps; tests run a few steps on one function and never retry after an error or change the model.", "anchors": ["solvers.go:BarzilaiBorweinSolver.Step", "solvers.go:newCachedDV", "solvers.go:extractWeightGrad"]}
{"id": "C70", "title": "Tensordot contracts as specified, and its symbolic gradient is right unless axes have size one", "statement": "Tensordot succeeds exactly if both operands have an axis and the two lists of axes are free of duplicates, in range, and pair up equal sizes; the inferred shape is the remaining axes of the first operand followed by those of the second, and an entry is the sum over the coordinates along the axes. If no axis has size one, SymDiff succeeds for any axes in any order and hands each operand the adjoint of the contraction in that operand. If the output has only axes of size one without being a scalar, or if the second operand is a vector of length one that is contracted, SymDiff returns an error although the gradient exists.", "quantifier": "all ranks, shapes, lists of axes, and entries from any commutative ring", "why_tests_cant": "Tests check a handful of ranks with axes in one order; the axis bookkeeping (sorting with an imitator, pattern, transposition) is a claim about every permutation and rank.", "anchors": ["operations.go:589-636", "operations.go:660-674", "op_math.go:806-895", "op_math.go:1097-1246", "op_tensor.go:1277-1313"]}
{"id": "C71", "title": "Elementwise arithmetic on tensors and scalars has right symbolic gradients, except for a vector with a column", "statement": "For operands of equal shape, or a scalar with a tensor of any shape, Add, Sub, HadamardProd, HadamardDiv and Pow give the operation entry by entry (a scalar with every entry), and SymDiff hands each operand the gradient of its own shape, summed over all entries for a scalar. A vector of n entries and an n-by-1 matrix are also accepted; then for each of the five operations the vector is handed a gradient of the shape of the matrix.", "quantifier": "all shapes, values and output gradients, all five operations; nonzero divisors and positive bases", "why_tests_cant": "The claim is about derivatives at every point for every shape and for each placement of the scalar; tests compare a few numbers, and no test covers a vector with a column.", "anchors": ["op_math.go:137-189", "op_math.go:219-243", "operatorPointwise_binary.go:430-432", "operatorPointwise_binary.go:532-542", "operatorPointwise_binary.go:647-660", "operatorPointwise_binary.go:809-829", "operatorPointwise_binary.go:878-929"]}
{"id": "C72", "title": "Automatic gradients of elementwise arithmetic accumulate, except for a scalar combined with a tensor", "statement": "elemBinOp.DoDiff adds to the derivative of each operand the partial derivative times the output's derivative if both are tensors or both are scalars. For a scalar and a tensor of n entries the scalar's former derivative is counted n times before the sum over the entries is added; Add with the scalar first also adds the former derivative to every entry of the tensor's. So the first operation that uses a scalar is differentiated rightly, and a scalar used twice ends up with n times the first contribution. A tensor to the power of a scalar always returns an error.", "quantifier": "all values, former derivatives, output derivatives and numbers of entries (two or more for the mixed cases), all five operations", "why_tests_cant": "The behaviour depends on what the operand had accumulated before; tests differentiate one operation with fresh derivatives. The exact result for every former derivative is a statement about all states.", "anchors": ["op_math.go:249-281", "op_math.go:323-372", "operatorPointwise_binary.go:331-426", "operatorPointwise_binary.go:434-530", "operatorPointwise_binary.go:544-645", "operatorPointwise_binary.go:662-807", "operatorPointwise_binary.go:831-875", "operatorPointwise_binary.go:931-997", "execution.go:81-110"]}
{"id": "C73", "title": "ByIndices selects along an axis and has the adjoint as symbolic gradient; its automatic gradient always fails", "statement": "ByIndices(x, indices, axis) gives the tensor whose entry k along the axis is x's entry indices[k]; a negative axis means the first. SymDiff gives the adjoint: every entry of x gets the sum of the output gradient over all positions that read it, so repeated indices add up and unread entries get 0. An axis x does not have panics, an index out of range is an error. DoDiff returns an error for all inputs, so ByIndices cannot be used with the automatic differentiation of LispMachine.", "quantifier": "all shapes, axes, values, index lists (with repetitions) and output gradients", "why_tests_cant": "The adjoint claim ranges over all shapes, axes and repeated index lists; tests fix a few small ones with one axis and never run DoDiff.", "anchors": ["op_by_indices.go:16-32", "op_by_indices.go:48-58", "op_by_indices.go:89-145", "op_by_indices.go:176-244"]}
{"id": "C74", "title": "The automatic gradient of Sum adds the adjoint to the input's derivative", "statement": "sumOp.DoDiff adds to the derivative of the input, whatever it held, the output's derivative copied along the summed axes, which is the adjoint of Sum. The output's derivative may be left with the summed axes kept as ones; calling DoDiff again with it gives the same contribution.", "quantifier": "all shapes with positive sizes, all sets of distinct axes in any order, all former derivatives", "why_tests_cant": "All shapes, axes and former derivatives, and what a second call does with the tensor the first one reshaped in place.", "anchors": ["op_reduction.go:257-334"]}
{"id": "C75", "title": "Mul chooses the right product and infers its shape; several misfits are only noticed when run", "statement": "For scalars, vectors and matrices whose inner sizes agree Mul gives the product and the node has the value's shape; running succeeds for no others. Building the node is refused only for misfitting matrices, a matrix with a vector as long as neither axis, and operands of three or more axes: an m-by-n matrix with a vector of m entries and two vectors of different length are accepted and fail when run, and so is BatchedMatMul with any inner sizes. A matrix product with a transposed operand whose operands are the same tensor transposes both, so Backprop with y as the gradient of x*y yields y'*y' instead of y*y'. Div panics unless an operand is a scalar or the shapes are equal.", "quantifier": "all shapes and values", "why_tests_cant": "The claim is about every combination of shapes, including those that are accepted and fail later, and about operands that are the same tensor.", "anchors": ["operations.go:52-122", "op_math.go:543-618", "op_math.go:745-795", "operatorLinAlg.go:435-501", "operatorLinAlg_const.go:87-90", "shape.go:14-22"]}
{"id": "C76", "title": "Automatic gradients of matrix, vector and batched products accumulate, also for repeated operands; that of OuterProd always fails", "statement": "DoDiff of matrix, matrix-vector, dot and batched products adds to the derivatives of the operands exactly the symbolic gradients of C16, for all transposition flags, and both contributions if the operands are one node. DoDiff of OuterProd returns an error for all vectors.", "quantifier": "all sizes, values, former derivatives and output derivatives, equal or different operand nodes", "why_tests_cant": "All sizes, former derivatives and sharing of operands.", "anchors": ["operatorLinAlg.go:104-178", "operatorLinAlg.go:204-230", "operatorLinAlg.go:246-260", "operatorLinAlg.go:276-291", "operatorLinAlg.go:345-421", "op_math.go:697-719"]}
{"id": "C77", "title": "Float32 BatchNorm computes what the float64 one computes, except that evaluation keeps the statistics of the last training batch", "statement": "For float32 tensors BatchNorm gives the outputs and, in training, the new running and saved statistics of the float64 code. In evaluation mode it leaves the saved statistics untouched, so a gradient taken in evaluation mode of an input with several entries per channel and sample is divided by the deviation of the last training batch instead of the running deviation by which the output was divided; it differs from the float64 gradient and neither is the gradient. With one entry per channel the gradient is right.", "quantifier": "all batches, channels, sizes, statistics, momenta, epsilons, inputs and output gradients", "why_tests_cant": "The gradient depends on a training batch seen before the switch to evaluation; a test of one batch sees no difference.", "anchors": ["op_nn.go:1489-1632", "op_nn.go:1834-1943"]}
{"id": "C78", "title": "The automatic gradient of Tensordot accumulates the adjoint; for tensors of unit axes it is silently lost", "statement": "For operands without axes of size 1 DoDiff of Tensordot adds to the derivative of each operand the adjoint of the contraction applied to the output's derivative, and both contributions if the operands are one node. For operands all of whose axes have size 1 and whose numbers of axes differ DoDiff reports success and adds nothing.", "quantifier": "all shapes, axes, values, former derivatives and output derivatives", "why_tests_cant": "All numbers of axes and contractions; the loss is reported as success.", "anchors": ["op_math.go:916-1087"]}
{"id": "C79", "title": "The gradient of every composition of pointwise operators", "statement": "For every expression built from the pointwise operators, of any depth and with inputs used any number of times, and every point at which all operators in it are differentiable, the gradients Backpropagate sends to an input sum up to the output's gradient times the partial derivative (Log2 and InverseSqrt excepted, whose rules are wrong), and the lisp machine adds the same to what the input had accumulated (InverseSqrt excepted).", "quantifier": "all expressions, inputs, points, output gradients, former derivatives, both settings of the stabilisation switch", "why_tests_cant": "There are infinitely many compositions; tests check single rules at single points.", "anchors": ["differentiation.go:133-340", "vm_genera.go:512-562", "operatorPointwise_unary.go:110-775", "operatorPointwise_binary.go:430-997"]}
{"id": "C80", "title": "BinaryXent, LeakyRelu, Rectify and Mish: values, gradients and infinities", "statement": "For probabilities strictly between 0 and 1 BinaryXent is the documented cross-entropy, whatever its operands and the stabilisation, and its gradients are right, in particular sigmoid - target behind a Sigmoid. Its constant 1 + 1e-16, meant to keep the logarithm away from 0, is 1 in both float types and only defeats the stabilisation of Log(1 - Sigmoid): for logits above 19 the loss is infinite or NaN for every target. Rectify, LeakyRelu and Mish have the documented values and gradients on numbers (the right-hand derivative at 0), but Rectify and Mish of -Inf and LeakyRelu of either infinity are NaN.", "quantifier": "all numbers, slopes, output gradients, operands, both settings of the stabilisation switch", "why_tests_cant": "All real inputs and all operand expressions; the failing logits and infinities are outside the tested points.", "anchors": ["nn.go:16-66", "nn.go:83-163", "operations.go:638-647", "const.go:86-98"]}
{"id": "C81", "title": "Random input nodes of one dtype and shape are one node, whatever their distributions", "statement": "UniformRandomNode, GaussianRandomNode and BinomialRandomNode return the random node made earlier in the same graph with the same dtype and shape, whatever distribution and parameters were asked for then, and without hash collisions exactly then; the node keeps the operator of the first request. An unnamed NewVector/NewMatrix/NewTensor input of that dtype and shape is merged with it too; a named input never is. So UniformRandomNode(g, dt, 5, 6, 3) need not draw from [5, 6).", "quantifier": "every hash function, every graph built through the API, every pair of requests with anything in between, all parameters", "why_tests_cant": "Needs two random nodes of one shape in a graph and any history between them; drawn values are random, so a test on one node sees nothing wrong.", "anchors": ["gorgonia.go:UniformRandomNode", "gorgonia.go:GaussianRandomNode", "gorgonia.go:BinomialRandomNode", "op_nn.go:randomOp", "node.go:Node.isInput", "node.go:Node.WriteHash", "equalities.go:nodeEq"]}
{"id": "C82", "title": "ApplyOp makes a node in the graph of its first argument with a graph", "statement": "ApplyOp reports a missing graph exactly when no argument has one, and a disagreement exactly when two arguments that are no constants are in different graphs; otherwise the node is made in the graph of the first argument that has one. That is the graph of the arguments that are no constants if every constant is without graph or in it; a constant of another graph in front of them makes the node in the wrong graph without an error, and the other argument's id is overwritten, after which its own graph finds it under another node's id and nothing under its own.", "quantifier": "every list of arguments with any graphs, every graph and hash function", "why_tests_cant": "The choice depends on the order of the arguments and on where constants come from; the damage shows in the other graph only.", "anchors": ["op.go:ApplyOp", "collections.go:Nodes.AllSameGraph", "node.go:Node.fixChildren", "graph.go:ExprGraph.AddNode", "graph.go:ExprGraph.addToAll"]}
{"id": "C83", "title": "A node made by Concat(axis, ns...) keeps the caller's slice as its children", "statement": "The children of a Concat node stay what they were, and agree with the edges entered for it, as long as the program does not write to the slice it passed, whatever else it does; with listed arguments always. Writing to the slice changes the node's children but not its edges or its hash: a program reusing one slice for two Concats gets two nodes with the second one's children. Concat itself writes the graph's copies of constants into the caller's slice.", "quantifier": "every sequence of slice creations, writes and Concat calls", "why_tests_cant": "Depends on what the program does with its slice after the call, over any history.", "anchors": ["operations.go:Concat", "op.go:ApplyOp", "node.go:WithChildren", "node.go:Node.fixChildren", "node.go:Node.fixEdges"]}
{"id": "C84", "title": "Two normalisations of one node are merged: BatchNorm up to one decimal of momentum and epsilon, GroupNorm whatever its epsilon", "statement": "A second BatchNorm of a node whose momentum and epsilon print alike with one decimal returns the first one's node, and without hash collisions only then; all epsilons below 0.05 print alike. The operator object the second call returns is not the node's: switching its mode has no effect on the node. A second GroupNorm with the same groups and channels returns the first node whatever epsilon. In both cases different epsilons denote different functions.", "quantifier": "every hash function, every graph built through the API, every node normalised, all momenta and epsilons", "why_tests_cant": "Needs two calls on one node and depends on printed parameters; one call per graph shows nothing.", "anchors": ["nn.go:BatchNorm", "op_nn.go:BatchNormOp.WriteHash", "op_nn.go:BatchNormOp.SetTraining", "op_group_norm.go:GroupNorm", "op_group_norm.go:GroupNormOp.WriteHash", "graph.go:ExprGraph.AddNode"]}
{"id": "C85", "title": "Types of nodes: dtypes must agree, the number of axes is never checked by the type, and where type and shape disagree building panics", "statement": "If every operand's type has as many axes as its shape, all pointwise, elementwise, linear algebra and shape operators (Sum and Max along distinct axes) give a node whose type again has as many axes as its shape and has the operands' dtype (Bool for comparisons, the target for ConvType); operands of different dtypes are always refused with an error. Building a node panics instead of returning an error: adding single-entry tensors of which the first has fewer axes; Sum or Max with an axis named twice; a slice with a step that leaves one entry; reshaping a vector that was given as a column. DiagFlat's node has a type nested in a matrix type, so it cannot be added to or multiplied with a matrix of its own shape and dtype, and summing it panics.", "quantifier": "all nodes, dtypes, shapes, lists of axes and operators named", "why_tests_cant": "needs every combination of operator, shape and type; the panics need unusual but valid calls", "anchors": ["typeSystem.go:44-78", "op.go:168-214", "node.go:210-230", "type.go:55-146", "op_math.go:93-131", "op_reduction.go:22-44", "op_tensor.go:501-533", "op_nondiff.go:19-33"]}
{"id": "C86", "title": "YOLOv3 decodes the boxes of one square image, with the first anchors instead of those of the masks, and overwrites its input", "statement": "For one image of G by G cells, with masks that name existing anchors and no more masks than anchors, YOLOv3 outside training returns for every cell, mask and class number exactly the documented box: centre (sigmoid + cell) times the stride, width and height exponential times the anchor, the rest sigmoids, in the shape InferShape gives. The anchor used for the n-th mask is the n-th anchor, whatever the mask says: other masks never change the result. More masks than anchors crash, a mask out of bounds is an error. The tensor of the input node becomes the result (numbers and shape are lost), so running again on it is an error. More than one image is accepted when the graph is built and fails when run, with the input already changed. An image that is not square fails, or if the sizes happen to agree gives a value of another shape than inferred.", "quantifier": "all inputs, anchors, masks, grids, strides, numbers of classes and activation functions", "why_tests_cant": "the only test uses masks 0,1,2 with exactly those anchors, one image and a single run", "anchors": ["op_yolo.go:151-170", "op_yolo.go:294-398", "op_yolo.go:79-89"]}
{"id": "C87", "title": "The training output of YOLOv3: overlap is pixel counting with sides swapped, and losses are written to and read from the wrong places", "statement": "The overlap of two boxes is the number of pixels in both over the number in either (NaN without pixels), and getBestIOU finds the first target of greatest positive overlap. But rectangles are made with height and width exchanged, so boxes that overlap by a third can count as disjoint. The boxes compared with the targets are decoded from numbers that were regrouped twice, while evaluation regroups once: they differ as soon as there is more than one cell. The losses of a target are written from place p = (row*G + column)*masks + mask on instead of p times the numbers of a box, and raw numbers are read there, so the raw numbers of the box responsible for the target do not influence the output unless p = 0. The class of the second target is read from the first target's coordinates: class 0 for coordinates in the unit interval. Everywhere else the output is the loss of no object for boxes under the threshold and 0.", "quantifier": "all boxes, targets, anchors, masks, thresholds and activation functions", "why_tests_cant": "training mode has no test, and every value is a plausible number", "anchors": ["op_yolo.go:172-292", "op_yolo.go:400-513"]}
{"id": "C88", "title": "Elementwise arithmetic on a CUDA device", "statement": "With WithReuse naming a third tensor, and with UseUnsafe, a binary operation of the CUDA engine on accessible float tensors of equal shape and dtype computes the operation at every entry and touches nothing else, in whatever order the threads run, as long as one row of blocks suffices; so do the scalar and unary versions. Mod, differing or non-float dtypes, views and calls without option are refused. But reusing the second operand computes a op a; WithIncr, documented as an error, succeeds and overwrites; a tensor that needs more blocks than one row of the grid gets its tail silently left as a copy of the first operand, a whole multiple of a row is not computed at all, and beyond the whole grid a single entry is.", "quantifier": "all operators, tensors, device limits, memories and thread orders", "why_tests_cant": "tests need a GPU, small tensors fit in one row of blocks, thread order is not under their control", "anchors": ["cuda/arith.go:1-120", "cuda/external.go:52-85", "cuda/cmp.go:1-80", "op_math_cuda.go:23-85"]}
{"id": "C89", "title": "Binding values to nodes and taking them off", "statement": "Let of a Value of the node's dtype and shape (a vector also takes the column or row of its length) makes that very object the node's value, keeps a stored derivative and touches no other node; other Values and nodes that are no inputs are refused. But Let of a Go number is not checked at all, Let of a node succeeds and does nothing, UnsafeLet does not change what a constant's Value is, WithValue and WithGrad compare only the number of axes and the dtype, and WithValue of a one-entry tensor on a scalar node reshapes the caller's tensor. bindCopy keeps the bound object and its shape; a clone has a value of its own. UnbindAll takes the value off every node but constants and wipes exactly the tensors that were bound to a node, including those the caller bound with Let and those constants hold; UnbindAllNonInputs keeps the inputs' values unless another node is bound to the same tensor, which is then wiped under the input. A tensor bound to two nodes is given to the pool twice, so two tensors allocated later are the same object.", "quantifier": "all graphs, bindings, values, shapes and dtypes", "why_tests_cant": "which objects alias, and what later allocations get, depends on the whole history", "anchors": ["gorgonia.go:244-300", "node.go:132-191", "node.go:389-455", "node.go:651-734", "graph.go:269-283", "perf.go:48-84"]}
{"id": "C90", "title": "Shapes of nodes when construction options are used once, and more than once", "statement": "If every construction gets a WithShape of its own, the node returned has the shape asked for, whether it was in the graph already or not, and no other node or tensor changes its shape, over any history of constructions. But an option is one slice: using the same options again for the same node returns that node with shape zero along every axis (also in every other node made with the option); constructing a node that takes its shape from WithValue a second time zeroes the shape of the caller's tensor; NewConstant of a tensor with WithShape has shape zero along every axis, and its slice is in the pool while in use, so a later WithShape of as many axes can change the constant's shape.", "quantifier": "all graphs, names, shapes, histories, and choices of the pool", "why_tests_cant": "depends on slices shared through the library's pool and on which one the pool hands out", "anchors": ["node.go:208-232", "node.go:271-301", "perf.go:16-46", "gorgonia.go:72-126"]}
{"id": "C91", "title": "Cloning, zeroing, copying and comparing values, and making dual values of them", "statement": "CloneValue of a scalar, tensor or dual value yields the same data in memory shared with nothing else, so later writes to either do not reach the other; ZeroValue and Copy change exactly the entries of their target. ValueEq of values without nil parts decides equality of kind, shape (a vector equals itself as column or row) and entries, and is symmetric; but ValueEq(nil, x) panics while ValueEq(x, nil) is false, a dual value with a derivative against one without panics in one order and is false in the other, and a scalar NaN equals itself but not its clone. ValueClose never compares the shapes of float tensors. dvUnit, dvUnitVar, dvBind and dvBindVar give a derivative of zeroes or ones in memory of its own; dvBind0 keeps the result and zeroes the derivative only if the two share no memory, falls back to Do where UsePreallocDo fails, and dvBindVar0 does not.", "quantifier": "all values, memories, kinds, shapes, entries and operators", "why_tests_cant": "sharing of memory and the order of arguments matter; tests compare a few values that share nothing", "anchors": ["values_utils.go:44-215", "equalities.go:9-150", "dual.go:16-360", "values.go:193-230"]}
{"id": "C92", "title": "What the watches of the machines report, and what they miss", "statement": "Running the tape machine with WithNaNWatch, WithInfWatch or WithPointerWatch computes what the unwatched run computes up to the instruction where it stops, and the program counter stays there. NaN (infinity, a shared pointer) is reported at the first executed operator instruction whose value shows it, provided register and node id are above 0, and a run that finishes has shown none. In a compiled program whose first node is an input or constant, NaN is reported if and only if a node other than inputs, the first node and the node with id 0 has it; a constant NaN at the first position goes unreported. hasNaN looks at all floating point entries of value and derivative, and panics at integer or boolean scalars and missing derivatives. WithPointerWatch reports correct programs that overwrite an input in place. The lisp machine reports NaN at the first checked node, and WithInfWatch has no effect on it.", "quantifier": "all programs, machine states, graphs, values and combinations of watches", "why_tests_cant": "the blind spots depend on register and node numbering; tests watch single small programs", "anchors": ["vm.go:139-181", "vm_tape.go:249-347", "vm_genera.go:259-510", "utils.go:155-236"]}
{"id": "C93", "title": "KeepDims keeps the number of axes, save for vectors and their columns or rows", "statement": "If fn(a) has at most as many axes as a and is not a vector of more than one entry for a column or row a, KeepDims returns a node with exactly as many axes as a: fn(a)'s shape with axes of size one added in front (expandLeft) or at the end, and the same entries. If fn(a) is a vector and a its column or row, or the reverse, fn(a) is returned unchanged, with another number of axes: so the sum of a column along its axis of size one loses the axis. Any other result with more axes is an error, and errors and panics of fn are passed on.", "quantifier": "all nodes a, functions fn and results, both directions, all sizes", "why_tests_cant": "the exception depends on sizes being one; tests use one matrix", "anchors": ["shape.go:77-111"]}
{"id": "C94", "title": "ReduceAdd and ReduceMul fold from the left and name every step", "statement": "For a non-empty list ReduceAdd and ReduceMul return, if they succeed, the fold from the left of the values, whatever the options; they fail as soon as a step fails and then as that step failed. The empty list gives nil without an error, a single node is returned as it is with the options unused, and for two nodes or more the options are applied to every node made on the way, with the inputs in order and every right operand an input.", "quantifier": "all lists of nodes, operations and options that keep values", "why_tests_cant": "lists of any length; tests check a few lengths", "anchors": ["operations.go:328-395"]}
{"id": "C95", "title": "GlobalAveragePool2D gives the mean of every plane", "statement": "For an image of shape (b, c, h, w) with h, w at least one and elements of type Float64 or Float32, GlobalAveragePool2D gives a tensor of shape (b, c, 1, 1) whose entries times h*w are the sums of the planes, each between any bounds of its plane and unaffected by the others. Other numbers of axes and other element types are errors.", "quantifier": "all shapes and entries (exact arithmetic)", "why_tests_cant": "all sizes and entries; tests use one image", "anchors": ["op_nn.go:1944-2030", "nn.go:445-449"]}
{"id": "C96", "title": "Products on a CUDA device are right for gapless tensors of one data order, and only for those", "statement": "For tensors in device memory of one floating point type, stored without gaps, all by rows or all by columns, each operand transposed or not, and the result not transposed: Engine.MatMul and Engine.MatVecMul write the product into the result tensor and nothing beyond it, and the matrix product of two different tensors by linAlgBinOp.CUDADo is that of the operands transposed as asked, which are afterwards as before. Engine.Outer gives the outer product for results stored by rows, with the operands' shapes restored, and adds it to the result's contents for results stored by columns. Wrong results without an error: operands stored by columns with a result stored by rows, matrices that are views with larger strides, vectors with a step, one tensor as both operands of which one is to be transposed (both are), and Outer by columns of other element types (nothing is done). Outer of a vector and a matrix by rows fails and leaves the vector reshaped to a column.", "quantifier": "all positive sizes, entries of any commutative ring, orders and transpositions", "why_tests_cant": "eight layouts times all sizes, and a GPU is needed; cuBLAS's column order is easily confused on square matrices", "anchors": ["cuda/linalg.go:17-285", "op_math_cuda.go:182-240"]}
{"id": "C97", "title": "Transports between CPU and card: every node reads its inputs on its own device", "statement": "With one CUDA card, for every list of nodes in which the replacement of each child of a node's replacement comes earlier, insertDeviceInstr keeps the nodes in order and inserts at most one transport per source, each after its source and only for a node on the other device; every node then reads, for each child, the child itself if it is on the node's device and otherwise a transport of the child's replacement to that device, which comes before the node. With two cards a transport to one card is reused for a node on the other. ExternalOp.DetermineDevice returns an error for all inputs and outputs, also if all are on the same device.", "quantifier": "all graphs, replacements and orders of nodes; all lists of devices", "why_tests_cant": "depends on every mixture of devices, shared children and merged nodes, and needs a card", "anchors": ["analysis.go:52-65", "analysis.go:124-186", "execution.go:55-78"]}
{"id": "C98", "title": "Initial weights have the promised sizes, spreads and bounds", "statement": "An InitWFn returns one number per entry of the shape, in the dtype asked for (Ones for a scalar returns the number itself). Zeroes, Ones, ValuesOf, RangedFrom and RangedFromWithStep give the constants and arithmetic sequences they name. GlorotN multiplies standard normal draws by a deviation whose square is 2*gain^2/(inputs+outputs of a unit); GlorotU on Float64 draws between -l and l with l^2 = 6*gain^2/(inputs+outputs), the same variance; HeN and HeU use gain^2/inputs and 3*gain^2/inputs. GlorotU on Float32 draws normal numbers instead: its weights equal those of GlorotN and have no bound. Everything outside the supported dtypes, axes and gains panics (HeN and HeU know Float64 only). Weights made by Gaussian or Uniform at one reading of the clock agree on their common entries.", "quantifier": "all initialisers, dtypes, shapes, gains and bounds, all clock readings and all sequences of draws of the generators, any conversion to float32", "why_tests_cant": "The draws come from generators seeded by the clock: a test sees a few of them, and neither the bound nor the variance of all draws nor the exact set of panics can be read off samples.", "anchors": ["weights.go:24-264", "weights.go:267-315", "weights.go:348-445", "weights.go:455-520"]}
{"id": "C99", "title": "Slices of nodes as sets, and what they do to shared memory", "statement": "Nodes.Set, Difference and Intersect (on slices without repetitions that share no memory) return exactly the set named, ascending by address. They reorder the receiver and the argument in place; if the receiver has room behind its length, Difference and Intersect overwrite that room, so that another slice of the same array loses its nodes. Add appends a node unless it is there; two nodes added to one slice with room behind it end up in one place, the second destroying the first; on a full slice both results stand. Equals is equality as sets on slices without repetitions and depends on the side otherwise. AllSameGraph holds iff there is a node and one graph holds all nodes that are not constants. remove takes out every occurrence in order and leaves nil in the places given up of every slice sharing the memory; replace, reverse and index do what they say.", "quantifier": "all memories, slices (offsets, lengths, capacities), nodes, every growth policy of append and every implementation of xtgo/set within its contract", "why_tests_cant": "Whether append reuses memory depends on capacities that the runtime chooses and that the API does not show; a test compares results of fresh slices and never sees another slice of the same array.", "anchors": ["collections.go:34-61", "collections.go:118-209"]}
{"id": "C100", "title": "Functions compiled from part of a graph", "statement": "CompileFunction refuses a call for unused inputs exactly if an input is needed by no output, and names precisely those inputs; otherwise the program is made from exactly the nodes the outputs need, and running it leaves in every output that no other node of the subgraph uses the value its expression has in the whole graph. Beyond their number the inputs have no effect on the program: inputs that the outputs need may be left out without an error. A call without inputs never yields a program (inputs[0] panics). An output that another output uses does not keep its value: the later one is computed in its memory.", "quantifier": "all built graphs, lists of inputs and outputs, operator semantics, values of the inputs", "why_tests_cant": "A test compiles a few functions with one output; the claim is about every subgraph of every graph and the values of all outputs after the run.", "anchors": ["compile.go:62-104", "compile.go:128-143", "compile.go:633"]}
{"id": "C101", "title": "Conversion of dtypes inside a graph", "statement": "ConvType from float64 or float32 to int drops the fraction of every entry, from int to float64 (float32) is exact for integers up to 2^53 (2^24), into fresh or given memory alike, and integers in that range come back unchanged. A wrong source dtype is refused when the graph is built. Every other pair of dtypes, including a dtype to itself, is accepted when the graph is built and fails in every run. A scalar input yields a value of shape (1) although the node has the shape of a scalar. The gradient passes through the truncation unchanged although the conversion is locally constant, and the gradient of int to float is itself truncated: everything smaller than 1 in it is lost.", "quantifier": "all shapes, entries, pairs of dtypes, contents of the memory given, every conversion of numbers within Go's contract", "why_tests_cant": "There are finitely many pairs a test would try but infinitely many values and shapes; the claim on the gradient is about neighbourhoods of every number.", "anchors": ["op_types.go:13-160"]}
{"id": "C102", "title": "In-place transposition by the standard engine", "statement": "StandardEngine.Transpose on a dense tensor whose axes have been reordered leaves memory in which every entry stands at its row-major place of the new shape, for both float types, keeping the length of the memory. On a tensor that does not fill its memory the entries move to the front in order and the memory behind them, which belongs to other tensors, is zeroed: for float64 up to the last entry, for float32 to the end. Memory on a device is refused; a float64 tensor without entries panics where a float32 one does not. The claim that memory outside the tensor is untouched is false.", "quantifier": "all shapes, orders of axes, strides within memory, contents", "why_tests_cant": "A test transposes a few dense matrices; the claim is about every order of axes of every rank, and about memory that does not belong to the tensor.", "anchors": ["engine.go:13-59"]}
{"id": "C103", "title": "Transfer of values between the host and CUDA devices", "statement": "A value transferred to a device has the same shape and, once the queue of copies is emptied, the same bytes, in a block that was not in use; memory of the host and every other block keep their content. Back it is in fresh memory of the host, with the same bytes once the queue is emptied; there and back is then the identity. The wait that a synchronous transfer, ValueOnDevice and GradOnDevice ask for would empty the queue, but no method of ExternMetadata ever makes the channel Signal needs: in every history a synchronous transfer is an asynchronous one and a value brought to the host is zeros when it is returned. Without the wait no snapshot is taken: the device receives what the host memory holds when the queue is emptied. A device beyond the last is an error, except the first such, which is a panic; from one card to another is a panic; to where it is gives the value itself. ValueOnDevice returns a value on the device asked for and reports allocation exactly if it allocated. A scalar of an unsupported dtype is an error that keeps its block. A value made from memory with a dtype for its type is a scalar whatever the shape. GradOnDevice may return a value on another device.", "quantifier": "all memories, queues of pending copies, values, devices, allocators that hand out no block in use", "why_tests_cant": "Copies are carried out at a time the test does not control, and tests run without a card; the claim covers every queue and every state of the memory.", "anchors": ["cuda.go:Transfer", "cuda.go:Signal", "cuda.go:init", "cuda.go:ValueOnDevice", "cuda.go:GradOnDevice", "values.go:makeValueFromMem"]}
{"id": "C104", "title": "An element read with At is never read by the tape machine", "statement": "A node made by At of a tensor is marked as a statement. The compiler makes no instruction for it and gives it register 0, which belongs to the first node of the program; so over any sequence of runs, resets and new inputs the node never gets a value, and every node or Read that uses it is computed as if it used the first node (usually the first input) instead. The run reports no error. It is therefore false that a run without an error computes expressions that use At.", "quantifier": "all compiled graphs with At nodes anywhere, all operator meanings, all inputs, all histories of runs, resets and Lets", "why_tests_cant": "No test runs an At node in a machine; which wrong value appears depends on the order of the sorted nodes and on register allocation, so that a single test may even pass by accident when the first node happens to hold the right number.", "anchors": ["operations.go:191-207", "op_tensor.go:20-68", "node.go:103", "regalloc.go:297-303", "regalloc.go:327", "compile.go:250-345", "compile.go:604"]}
{"id": "C105", "title": "Lifted functions: errors go through, the user's own types do not always", "statement": "A program written with functions lifted by Lift1, Lift2, Lift1Axial and Lift2Broadcast means what the same program means with an explicit error check after every call: it gives the node, or an error with the cause of the leftmost innermost failure, and no function is called with a failed argument. NodesFromInputs gives the nodes in order or names the first input that is not a node. A type of the user's with a Mk method is kept through any chain of lifted functions if it also has an Err method; without one the first call wraps its result so that Mk is hidden, and from the second call on the results are plain nodes. A Result without an error need not have a node.", "quantifier": "all programs of lifted functions, all functions with their effects, all inputs including types of the user's, chains of any length", "why_tests_cant": "The tests run two or three fixed expressions; that errors and effects agree for every nesting, and that a user's type is lost exactly at the second call of a chain, are statements about all programs and all types.", "anchors": ["ermagerdmonards.go:13-158", "node.go:307-313", "collections.go:16-22"]}
{"id": "C106", "title": "Kernels of the fastmath tag: one reciprocal is refined, the other is not; tanh can panic; sigmoid is zero", "statement": "For every normal float64 x with exponent field at most 2043, _inversef64(x) of math_fast.go computed in exact arithmetic satisfies |1 - x*y| <= 0.0506^8. For every normal float32 x with exponent field at most 252 and mantissa fraction m, _inversef32(x) is off by exactly m(1-m)/2 relative to 1/x (up to 12.5%, e.g. 0.75 for 1.5) because the refined value is dropped; the two refinement steps the function runs would have left the fourth power of that, at most 1/4096. At optimization level 2 _tanhf32 and _tanhf64 panic exactly at 0 and are otherwise odd, monotone, of the sign of the argument and bounded by 0.96016; at level 1 _tanhf64 is odd but exceeds x/28 for positive x and so exceeds 1 (already at 5); every level outside 0..2 panics on every argument. _sigmoidf32 and _sigmoidf64 are 0 everywhere.", "quantifier": "all normal floats with the stated exponents (all signs and mantissas); all real arguments; all integer levels", "why_tests_cant": "The bound on the reciprocal has to hold for 2^52 mantissas and 2043 exponents; the panic of tanh sits at one point and the error of the float32 reciprocal vanishes on powers of two.", "anchors": ["math_fast.go:40-51", "math_fast.go:62-71", "math_fast.go:104-148", "math_fast.go:150-156", "math_fast.go:11", "opt.go:7"]}
{"id": "C107", "title": "Queries on a graph and ExprGraph.Constant", "statement": "On every graph built by any sequence of node creations, constants, lookups, Roots and To calls: Inputs and ByName list, once each and in graph order, exactly the input nodes and the nodes with that internal name; Edge(u,v) is the edge from a node to its child and nil otherwise, HasEdgeBetween is that in either direction, both agree with HasEdgeFromTo and never with the direction Edges lists; From gives the operands. For an id that is not in the graph From gives nil while Node gives a non-nil interface holding a nil pointer (against gonum's contract). Constant(v) gives a recorded constant with an equal value when there is one, without changing the graph; otherwise a recorded constant with merely the same printed value, whatever its type and value (so asking for the float32 1 can give the float64 1); otherwise a new node with the contents asked for, or a node of equal type and shape whose operator hashes alike.", "quantifier": "all graphs reachable by any history, all ids, names and values, all hash functions and value equalities", "why_tests_cant": "The claims quantify over all histories of a graph and over all hash functions; the wrong constant only appears when two values print alike, and the nil-pointer interface only when the result is compared with nil.", "anchors": ["graph.go:259-266", "graph.go:289-308", "graph.go:518-598", "utils.go:47-53", "collections.go:53-61"]}
{"id": "C108", "title": "Repeating at run time: Do, UsePreallocDo and the counts they are given", "statement": "For every shape, axis and count n >= 1, repeatOp.Do gives the shape with the axis n times as long and every entry n times in place; a scalar becomes a vector of n copies (for n = 1 a tensor without axes). UsePreallocDo, given memory of the result's type and shape, gives the same entries for scalars, for float tensors and for tensors with more than one entry; for a tensor of any other type with a single entry it writes nothing and returns whatever the memory held. A count is the given scalar cut towards zero; booleans and tensors are refused. The size of an axis made by sizeOp reads back as that size for integers, up to 2^53 for float64 and up to 2^24 for float32 (beyond, within one part in 2^53 or 2^24: 16777217 reads back as 16777216); axes out of range are refused, negative ones panic, other types are refused. intRange counts from start to end, end left out, in either direction.", "quantifier": "all shapes, axes, counts, entries, memory contents and sizes", "why_tests_cant": "The entry law ranges over all shapes and axes; the unwritten result only shows for non-float one-entry tensors run through preallocated memory; the float32 size is wrong only beyond 2^24 entries.", "anchors": ["op_tensor.go:107-140", "op_tensor.go:354-393", "op_tensor.go:411-472", "utils.go:61-109", "utils.go:123-146"]}
{"id": "C109", "title": "The graphviz export shows every node in the cluster of its kind, and what its labels and edges leave out", "statement": "For every graph the package builds and every order in which the library gives the nodes, the graph behind dot.Marshal is made without a panic: its top clusters are Undefined (always empty), ExprGraph, Constants and Inputs in this order, each node is in the cluster of its kind exactly once, and inside ExprGraph there is one cluster per further group (e.g. one call of Conv2d) holding exactly the operations of that group. Exporting writes the clusters into the groups of the nodes; exporting again changes nothing further. The exported graph has the nodes of the graph and exactly one edge from each node to each of its children; so the edges tell neither the order of the operands nor how often a node is an operand. In a label, the escaped name and operation read back as the original for every text, no quote, brace or angle bracket gets through, and the text is one field exactly if it has neither a bar nor \"const\"; a bar and a backslash get through and change the fields.", "quantifier": "all graphs with distinct IDs whose extra groups are on operations, all visiting orders, all names and operations (any text)", "why_tests_cant": "The library iterates over a Go map, so the visiting order differs from run to run; the claim covers every order, every grouping and every text, where a test sees one graph in one order.", "anchors": ["encoding/dot/topgraph.go:14-99", "encoding/dot/copy.go:8-31", "encoding/dot/node.go:15-60", "internal/encoding/groups.go:6-48", "internal/encoding/constants.go:6-19", "node.go:252-269"]}
{"id": "C110", "title": "Where the compiler flushes the batched BLAS, and the operands it leaves unprotected", "statement": "Apart from flush instructions the compiled program is the one without batching. Between a call to the BLAS and any later instruction that uses its result at once - an operator that does not call the BLAS, or a Read statement - there is a flush. If moreover no operator that works at once writes a register that a call still in the queue is going to read, then a run that only queues BLAS calls (pointers to operands and result) and works them off at the flushes, at the end, and at any other moments the collector may choose, succeeds and leaves in every surviving register, node and Read variable the value of direct evaluation. That condition holds when the operands of the BLAS calls are inputs, constants or gradients of inputs. It fails in general: for e = f(x), a = e @ x, d = -e, r = a + d the negation is written into the memory of e while the product is queued, and r is wrong.", "quantifier": "all sorted graphs without Let and without hash collisions, all operators' meanings and input values, all further moments of working off the queue", "why_tests_cant": "A test without batched BLAS never sees a queued call, and one with it sees one schedule of one graph; whether a flush lies on every path from a call to a use is a statement about all graphs and all register assignments.", "anchors": ["compile.go:107-126", "compile.go:221-231", "compile.go:284-306", "compile.go:347-501", "vm_tape.go:213-271", "vm_tape.go:734-745", "vm_tape_nocuda.go:19-164", "noextern.go:14-54"]}
{"id": "C111", "title": "RunAll returns after all batched BLAS calls, unless another machine takes its signal", "statement": "With a batched BLAS, RunAll of a tape machine returns under every schedule, provided no other machine waits for work of the same BLAS: it cannot deadlock or run for ever. When it returns the goroutine it started has ended, every BLAS call of the executed instructions has been run exactly once, and the result is the error of the first instruction that failed, or else of the first closure that failed, or nil. When Signal returns every call made before has been run; without flushes calls are run in the order made. A flush guarantees this only while RunAll is not working itself: RunAll may have taken a call from the channel and not run it yet when the flush ends, and later calls may overtake it. If another tape machine exists its collector can take the signal, and RunAll then waits for ever at the fourth call. RunAll of a lisp machine never runs a batched call, and never returns if there are more calls than the channel holds.", "quantifier": "every program, every interleaving of RunAll, runall and the collectors, every capacity of the channel", "why_tests_cant": "The failures depend on the schedule of three goroutines; a test run sees one schedule, usually one without contention.", "anchors": ["vm_tape.go:tapeMachine.RunAll", "vm_tape.go:tapeMachine.runall", "noextern.go:ExternMetadata.collectBLASWork", "noextern.go:ExternMetadata.Signal", "blase/work.go:context.enqueue", "vm_genera.go:lispMachine.RunAll"]}
{"id": "C112", "title": "Detections of the YOLO examples: what is kept and what is suppressed", "statement": "For an output made of complete records (x, y, w, h, confidence, one probability per class) prepareDetections makes at most one detection of each record, in order: its class is the first of the most likely ones, and it is made exactly if that probability times the confidence is above the score threshold; an incomplete record panics. nonMaxSupr, whatever order the sort leaves among equally confident boxes, returns only detections it was given; no two returned ones of one class share more than the threshold's part of their pixels; each one left out shares more than that with a returned one of its class. But the order of Less is ascending, so the returned one is at most as confident as the one left out: a least confident detection is always kept, and that for each detection one at least as confident of its class is kept is refuted. Rectify gives a rectangle in the picture with the centre in it when the centre is in the picture; a box beyond the right edge gives a non-empty rectangle outside of it. ProcessOutput refuses another number of classes than the network's and otherwise returns the detections left, ordered by their left edge.", "quantifier": "all outputs, class lists, thresholds, all sorts that permute and order, all box sets, all rectangles", "why_tests_cant": "the set of boxes and the order of equal confidences are unbounded; that something is hidden only by something kept and the pairwise separation are statements about all lists", "anchors": ["examples/tiny-yolo-v3-coco/detections.go:prepareDetections", "examples/tiny-yolo-v3-coco/detections.go:nonMaxSupr", "examples/tiny-yolo-v3-coco/detections.go:YOLOv3.ProcessOutput", "examples/tiny-yolo-v3-coco/utils.go:Rectify", "examples/tiny-yolo-v2-coco/detection_layer.go:nonMaxSupr"]}
{"id": "C113", "title": "The life of a CUDA engine: what Init, Close and Memcpy return, and when they do not", "statement": "Whatever sequence of Init, Close, Memcpy and batched work one goroutine calls on a cuda.Engine, and however the goroutine Run is scheduled: every execution ends; there is never more than one Run, and none is left when the engine is not marked as initialised. If nothing fails and lives of Init, work and Close follow each other, everything returns nil, except in one deadlock: Close takes the Mutex before Run has had it for its first check (that Init and Close always return is refuted). Memcpy never returns, since nobody receives what its Signal sends. Init returns the error of making the first context; after a later failure, for instance too little memory, it does not return at all (unless unloading a module fails too), as the Close it calls waits for a Run that was never started. A failure to close cuBLAS or cuDNN is never reported: Close wraps e.err, which Run can only set when Close has released the Mutex, so it returns nil, leaves the engine marked as initialised, and later calls of Init return nil and of Close do not return. After a failed batch, and on a closed engine, Close does not return.", "quantifier": "all sequences of calls, all outcomes of the driver's calls, all schedules of the two goroutines", "why_tests_cant": "the hangs depend on schedules and on failures of the driver, and that a call never returns cannot be observed; without a GPU no test runs at all", "anchors": ["cuda/external.go:Engine.Init", "cuda/external.go:Engine.doInit", "cuda/external.go:Engine.Close", "cuda/external.go:Engine.Run", "cuda/external.go:Engine.Signal", "cuda/engine.go:Engine.Memcpy"]}
{"id": "C114", "title": "The convolutional layers of the YOLO examples compute what darknet does with the weight file, except when they do not", "statement": "For every configuration of convolutional blocks and every weight file: the examples cut the file into the right pieces for each block, fold the batch normalization into kernels and biases (version 3 in place, in slices of one array, without disturbing a later or an earlier block), and a layer with leaky activation then yields, for one sample, exactly leaky(scale * (conv - mean) / sqrt(var + eps) + bias) in terms of the numbers of the file; so do all layers of version 2. But in version 3 a layer whose activation is not leaky (the two layers before the YOLO layers in the configuration that comes with the example) returns the convolution without its bias; with more than one sample biases go to the wrong filters; batch_normalize=0 panics; and a weight file that is too short is read beyond its end, as zeros, as far as the capacity of the slice goes.", "quantifier": "all lists of convolutional blocks, all weights, all inputs, all numbers of positions, all spare capacities, any square root", "why_tests_cant": "the examples have no test of it, and a test would compare a few numbers of one network; that slices of one array are folded without disturbing each other is a statement about all layouts", "anchors": ["examples/tiny-yolo-v3-coco/yolov3_tiny.go:NewYoloV3Tiny", "examples/tiny-yolo-v3-coco/conv_layer.go:convLayer.ToNode", "examples/tiny-yolo-v3-coco/weights_darknet.go:ParseWeights", "examples/tiny-yolo-v2-coco/weights_darknet.go:PrepareData", "examples/tiny-yolo-v2-coco/weights_darknet.go:DenormalizeWeights", "examples/tiny-yolo-v2-coco/net.go:PrepareBiases"]}
{"id": "C115", "title": "ResetAllocator gives the whole GPU memory pool back, unless an earlier merge lost part of it", "statement": "After any history of allocations and releases, an Engine.ResetAllocator that does not panic leaves a pool from which nothing is handed out and whose counters are zero, whatever the order in which the map of used blocks is read; everything handed out afterwards is pairwise disjoint, aligned and inside the region, and the counter of allocated bytes agrees with it. As long as every block that is merged is merged with all free blocks behind it, the reset does not panic and the region is one free block again, so a request of any size that fits is served at its start. Otherwise the stale back link of merging (C30) loses memory for good: there is a history after which the reset succeeds, nothing is handed out, and a request for half of the region fails. A block whose holder never released it is handed out again.", "quantifier": "every request sequence before and after the reset, region, alignment and order of the map", "why_tests_cant": "Depends on the history before the reset and on the iteration order of a Go map.", "anchors": ["cuda/arena.go:Engine.ResetAllocator", "cuda/bfc.go:bfc.free", "cuda/bfc.go:bfc.coalesce", "cuda/bfc.go:bfc.reset"]}
{"id": "C116", "title": "What the options of the two machines switch, and what RunAll and LastRun do under them", "statement": "For any list of options in any order: a lisp machine never has both directions off, the last of ExecuteFwdOnly and ExecuteBwdOnly counts, every other option holds once it is given, and the machine panics exactly for TraceExec, WithPointerWatch and watch lists with something else than nodes; for a tape machine the same with its own options (it panics for ExecuteFwdOnly, ExecuteBwdOnly and the three log directions). A tape machine with a logger writes exactly about watched registers, nodes and ids, or everything; a lisp machine writes only if a direction is logged, so WithWatchlist() alone does not log everything. Under ExecuteBwdOnly RunAll never changes anything and reports success, in any history of runs, resets and changed values. LastRun never says that backpropagation was done, panics after a successful run both ways, names the first node under ExecuteFwdOnly. If backpropagation fails with k instructions left, the next k RunAlls fail and the one after succeeds, none doing anything. RunAll refuses roots exactly if it runs backward without WithManualGradient and some root is neither a statement nor a scalar.", "quantifier": "all lists of options, watch lists, graphs, executions and derivations with arbitrary failures, and all histories of RunAll, Reset and user changes", "why_tests_cant": "the options commute only partly and the defects show only in histories (a failed backward pass, ExecuteBwdOnly after a forward run of another machine, LastRun after success), which no finite set of runs covers", "anchors": ["vm.go:ExecuteFwdOnly", "vm.go:ExecuteBwdOnly", "vm.go:WithWatchlist", "vm.go:WithPrecompiled", "vm_tape.go:NewTapeMachine", "vm_tape.go:watchedLogf", "vm_genera.go:NewLispMachine", "vm_genera.go:LastRun", "vm_genera.go:checkRoots", "vm_genera.go:RunAll"]}
{"id": "C117", "title": "What the cuDNN operators of ops/nn leave in the memory of their results", "statement": "Given cuDNN's contract that a result is alpha times the computed value plus beta times what the memory held: Conv2d on the GPU adds the convolution to what is in its register, so k runs leave k times the convolution on top of the initial contents and one run is right exactly if the register was zero; its two gradients are each computed from the input they are the gradient of in place of the other one (for one-number images right exactly if image and filter are equal or the incoming gradient is zero); MaxPool2D and Rectify are exact whatever the memory held, and their gradients too, which panic if the operator was not executed before; BatchNorm leaves its output, and its gradient leaves all three gradients, as they were, whatever the input, while in training the running statistics do move by the momentum; and any two BatchNorms of a graph whose inputs have equal shape and dtype share their running mean and variance and the cached ones, whatever is added in between.", "quantifier": "all inputs, contents of memory, numbers of runs, library functions of the right output sizes, momenta, graphs built in any way, hash functions", "why_tests_cant": "the operators need a GPU and the tests of the package do not look at results; the contents of a reused register depend on the whole program", "anchors": ["ops/nn/convolution_cuda.go:CUDADo", "ops/nn/convolution_cuda.go:SymDiff", "ops/nn/maxpool_cuda.go:CUDADo", "ops/nn/activation_cuda.go:CUDADo", "ops/nn/batchnorm_cuda.go:CUDADo", "ops/nn/api_cuda.go:BatchNorm", "ops/nn/scratch_cuda.go:WriteHash"]}
{"id": "C118", "title": "Loading the MNIST files of the examples", "statement": "Reading undoes writing: from a well formed label or image file, whatever follows it, Load's readers return exactly the labels and the images; a file cut off at any byte is an error. Load gives a row of weights for each image and a row with 0.9 in the column of the label and 0.1 elsewhere for each label, in float64 and float32. Computed with IEEE rounding, the weight of a pixel p is 0.9 p / 255 + 0.1 (0.999 for 255) to within 2^-52 (2^-24 for float32), lies strictly between 0 and 1 and increases strictly with p. What fails: an image file with another magic number is no error but zero images, on which Load panics; a header whose sizes multiply to a multiple of 2^32 is read as images without pixels; a label above 9 gives a row without a mark; reversePixelWeight gives back none of the 256 pixels, it is one or two too high modulo 256 and turns black into white.", "quantifier": "all lists of labels and images, header sizes below 2^31, bytes after the file, cut-off positions, magic numbers, all 256 pixels", "why_tests_cant": "there is no test of the loader; contents, sizes and truncation points of files are unbounded", "anchors": ["examples/mnist/io.go:readLabelFile", "examples/mnist/io.go:readImageFile", "examples/mnist/mnist.go:Load", "examples/mnist/mnist.go:pixelWeight", "examples/mnist/mnist.go:reversePixelWeight", "examples/mnist/mnist.go:prepareX", "examples/mnist/mnist.go:prepareY"]}
{"id": "C119", "title": "Set-up of the machines in CUDA builds", "statement": "NewLispMachine counts for each card four times the bytes of the values of the operations whose data is on it, and reserves on every card up to the last one used ten times those bytes plus 256; it does so card by card, each card being ready if the device is there, the driver calls succeed and more memory than that is free. If no operation is on a card, no driver call is made, the machine has no engine, and its nodes are the sorted nodes in order without transports, all on the CPU. Closing the machine gives back exactly what it reserved. A tape machine sets up its cards exactly if some instruction executes a CUDA operation. What fails: when cards are used and one is not ready, or there is no device, the constructor panics instead of going on with the CPU, and what was reserved on the cards before the one that failed stays reserved; and unless the graph was compiled for a tape machine before, a Lisp machine never uses a card, since only the compilation puts operations on cards.", "quantifier": "all lists of nodes with any shapes, dtypes and devices, all behaviours of the driver, all memory held before, all histories of making nodes, cloning, compiling and making Lisp machines", "why_tests_cant": "the tests need a card, cannot make the driver fail at a chosen card, and look at one graph", "anchors": ["vm_genera_cuda.go:init", "vm_genera_cuda.go:calcMemSize", "vm_genera_cuda.go:ForceCPU", "vm_tape_cuda.go:init", "cuda.go:init", "cuda.go:initFail", "cuda/external.go:doInit"]}
{"id": "C120", "title": "Gradients in CUDA builds: one place adds them up, two places lose them", "statement": "In CUDA builds the tape machine adds each gradient to its node's derivative on the host at once, or on a card by three queued calls (copy there, add, copy back). If all gradients of a node are computed in one place, the node ends up with its old derivative plus all of them in program order, under every interleaving of the program's goroutine and the cards' and whatever temporary memory is reused, once the program has ended without error and the queues are empty. If they are computed in two places, one can be lost. Until the queues are worked off the derivative need not have arrived; a gradient computed while its node has no value is dropped without an error; nodes outside the machine's list are never touched.", "quantifier": "all programs of gradient instructions, all schedules, all allocator answers, any addition", "why_tests_cant": "The loss needs a particular interleaving of two goroutines and a card; the positive claim is about all interleavings.", "anchors": ["vm_tape_cuda.go:execOp.exec", "vm_tape.go:runall", "cuda/external.go:Engine.Run", "dual.go:dvUnit", "node.go:bind"]}
{"id": "C121", "title": "Flushes around device transports in CUDA builds", "statement": "Whatever sorted list of nodes and whatever registers the code generator is given: between the transport that fills a register and any operation that reads what it brought there is a flush; a transport from a card to the host is directly followed by a flush, since the node it is for comes later in the list; between a transport and the operation it was inserted for there is a flush, and until then no other operation or statement runs; and no register is given memory twice. What fails: for operations on a card the generator's record of what has been flushed is wrong. A node counts as flushed as soon as a flush is made for one of its own operands, before its own instruction, so an operation on the host that read its register without a transport would get no flush.", "quantifier": "all sorted lists of nodes with transports anywhere, all assignments of registers", "why_tests_cant": "The claim is about every program the generator can emit; a missing flush only shows under some timings of the card, and the tests of CUDA builds need one.", "anchors": ["compile.go:addStmt", "compile.go:addNode", "compile.go:flush", "compile.go:updateLastWrites", "compile.go:gen", "analysis.go:insertDeviceInstr", "op_infidel.go:devTrans"]}
{"id": "C122", "title": "runInParallel does what the plain loop does", "statement": "runInParallel(from, to, cb) with callbacks none of which stores to a cell that another one loads or stores: under every interleaving of single loads and stores, of starting the goroutines and of their ending, the call can always still return, and when it returns all callbacks have run to their end and the memory is that of the plain loop. The callbacks of batch normalisation (statistics, alpha and beta, output by sample and by channel, gradient in training) and of group normalisation (forward, internal gradients, gradient) are of this kind for all sizes and values, even if input, output and gradients share their memory, provided the small slices of statistics have their own. Without that condition it fails: two callbacks adding to one cell can lose an addition.", "quantifier": "all schedules, all batch sizes, numbers of channels and groups, image sizes, contents and arithmetic", "why_tests_cant": "Tests see a handful of schedules and sizes; a race shows only under some.", "anchors": ["utils.go:runInParallel", "op_nn.go:updateStatsF64", "op_nn.go:calculateAlphaAndBetaF64", "op_nn.go:f64s", "op_group_norm.go:f64s", "op_group_norm.go:computeInternalGradientsF64"]}
{"id": "C123", "title": "The CTC loss and its gradient do not depend on how the samples are scheduled", "statement": "CTCLoss and its gradient go through the samples with runInParallel. For all sizes, all input lengths between 1 (0 for the gradient) and the number of rows, all target lengths and, for the gradient, labels below the number of labels: the callback of a sample stores only to its own section of logAlpha (logBeta), its own likelihood and its own columns of the gradient, no index leaves the section although rows are packed with the sample's own target width, and so under every schedule the call can return and then leaves the memory of the plain loop.", "quantifier": "all schedules, batch sizes, lengths, labels, contents and arithmetic", "why_tests_cant": "Tests use a few fixed batches and see few schedules; an index running over into the next sample would show only for some lengths and timings.", "anchors": ["op_ctc_loss.go:f64s", "op_ctc_loss.go:getPrimeTarget", "utils.go:runInParallel"]}
{"id": "C124", "title": "Classes as vectors and indexes, and back", "statement": "OneHotVector accepts exactly its five dtypes with an index among the classes and panics otherwise; the vector has 1 at the index and 0 elsewhere, and the index of its greatest entry is the one given. The vocabulary the character RNN makes from sentences starts with the start marker, ends with the end marker, holds besides exactly the runes that occur often enough, none twice, and vocab and vocabIndex are inverse to each other, in whatever order Go visits the map, provided neither marker occurs that often in the text; a rune outside has the index of the start marker. makeTargets reads the labels below ten back from the targets of the MNIST reader, in order. What fails: with a marker in the text, or after a second call of initVocab, vocabIndex is no longer inverse to vocab; and a row with a label of ten or more is left out by makeTargets, so there are fewer targets than rows and those behind it move up.", "quantifier": "all indexes, numbers of classes and dtypes; all sentences, thresholds and orders of visiting the map; all lists of labels", "why_tests_cant": "The order of visiting a map is random and the examples run on one text and one data set, which have neither markers nor labels above nine.", "anchors": ["gorgonia.go:OneHotVector", "examples/charRNN/vocab.go:initVocab", "examples/charRNN/util.go:maxSample", "examples/stacked_autoencoder/main.go:makeTargets", "examples/mnist/mnist.go:prepareY"]}
