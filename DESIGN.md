# Formal model of MDP (Modular toolkit for Data Processing)

## Layout

* `properties.jsonl`: the properties, in English.
* `rocq/theories/XModel.v`: executable Gallina model of one area of the code (no proofs); every definition cites file and lines.
* `rocq/theories/XProofs.v`: lemmas. `rocq/theories/XProps.v`: the property theorems (`Cnn_...`), with `Example`s showing that the hypotheses are met by
  concrete, non-trivial cases. Small areas have model and theorems in two files only.
* `MANIFEST.json`: which theorem settles which property, and under which assumptions.
* `seeded/LOG.jsonl`: log of the wrong programs tried: an edit of a model definition, and the theorem that no longer compiles.

Naming: a theorem `Cnn_x` states (a part of) property Cnn. `Cnn_..._refuted` shows that the property as stated in properties.jsonl does not hold of the
faithful model; `_partial` marks a theorem that covers a part only. In MANIFEST.json, status `partial` with a note that starts with `REFUTED` means that the
property is settled: it is false in general, and the other theorems listed say where it is true.

## Modelling conventions

* Python exceptions are values. Every modelled method that can raise returns the state after the call *and* the value or the exception, so that side effects
  performed before an exception are visible. This is where many of the refuted properties come from.
* Floating point numbers are replaced by exact numbers (`Z`, `Q`, `Qc`, `R`, an abstract ring or an abstract ordered field); rounding is not modelled.
* User-supplied behaviour (what a node's `_train`, `_execute`, ... computes) is a Section variable or a record field over which the theorems are universally
  quantified; it is never an axiom.
* Numerical routines of LAPACK and numpy (eigh, svd, pinv, argsort, ...) are parameters too. Theorems which need it assume their contract as a hypothesis; the
  contract is shown to be satisfiable by an Example.
* Random choices, the order of iteration through Python sets, and the order in which parallel results arrive are parameters, universally quantified.
* Threads and processes are transition systems; theorems range over all interleavings.
* Mutable Python objects that can be shared (lists of flows, messages, node references in layers) live in an explicit heap.
* Loops that need not end take fuel; the theorems hold for every amount of fuel for which a result is returned, and termination is a theorem of its own.

## Trusted base

* The kernel of Coq 8.16.1, including its virtual machine (`vm_compute` is used for Examples and witnesses).
* The models below describe the code faithfully. They are written by hand from the text of the pinned commit; there is no extraction and the code was not run.
* `PyList.v` gives the meaning of indices and slices of Python lists; association lists give the meaning of dicts (insertion order); the semantics of
  attribute lookup, iteration, generators and exceptions is built into the single definitions.
* joblib.Memory is taken as a table from (class and state of the node, argument) to values (CacheModel.v).
* No axiom is declared, no kernel check is switched off, nothing is admitted.

### Print Assumptions

`Print Assumptions` of the theorems named in MANIFEST.json: 1004 are closed under the global context. The others use only axioms of the standard library:

* `ClassicalDedekindReals.sig_forall_dec`: C213_sqrt, C416_num, C416_orthogonal, C416_sweeps, C416_white, C417_contrast, C417_max, C417_refuted, C418_execute_inverse, C418_inverse_execute, C418_matrices, C418_projmatrix, C418_recmatrix, C418_transposed, C419_exact, C419_refuted, C419_telescope, C421_jade, C422_gain, C422_on, C422_refuted, C422_two, C423_diagonal, C423_exact, C423_refuted, C424_defl, C424_symm, C425_filters, C425_refuted, C426_ignored, C426_kept, C426_refuted, C426_switch, C427_ends, C427_orthonormal, C428_direction, C428_fixed, C428_symm, C429_independent, C429_stays, C430_overwritten, C430_refuted, C431_refuted, C431_right, C431_start, C431_whitened, C432_case1, C432_case2, C433_minimal, C433_no_worse, C433_value, C434_rotation, C435_contrast, C435_sweep, C436_axes, C436_refuted, C437_ends, C437_refuted, C437_sweeps, C438_quits, C438_refuted, C438_rotates, C438_two, C439_matrices, C439_refuted, C440_slowness, C441_refuted, C442_multi, C443_accepted, C443_refuted, C443_weights, C445_convergence, C446_execute_inverse, C446_inverse_execute, C447_enough, C447_exception, C447_index, C447_refuted, C448_neighbours, C448_refuted, C449_best, C449_matrix, C450_refuted, C450_training, C451_best, C451_centered, C451_constants, C451_coordinates, C452_combination, C452_refuted, C453_execute, C453_refuted, C453_train, C454_range, C454_row, C455_projection, C455_refuted, C456_qr, C456_refuted, C456_sums, C456_unnormalized, C457_columns, C457_few, C457_orthonormal, C457_refuted, C458_first, C458_refuted, C458_rows, C499_again, C499_error, C499_eta, C499_stop, C500_refuted, similar_moved.
* `ClassicalDedekindReals.sig_not_dec`: C213_sqrt, C416_num, C416_orthogonal, C416_sweeps, C416_white, C417_contrast, C417_max, C417_refuted, C421_jade, C422_gain, C422_on, C422_refuted, C422_two, C423_exact, C423_refuted, C424_defl, C425_filters, C425_refuted, C426_ignored, C426_refuted, C428_direction, C428_fixed, C428_symm, C429_independent, C429_stays, C430_overwritten, C430_refuted, C432_case1, C432_case2, C433_minimal, C433_no_worse, C433_value, C434_rotation, C435_contrast, C435_sweep, C436_axes, C436_refuted, C437_ends, C437_refuted, C437_sweeps, C438_quits, C438_refuted, C438_rotates, C438_two, C439_matrices, C439_refuted, C440_slowness, C441_refuted, C442_multi, C455_projection, C455_refuted, C456_sums, C457_few, C457_orthonormal, C457_refuted, C458_refuted, C499_again, C499_error, C499_eta, C499_stop, C500_refuted.
* `Classical_Prop.classic`: C416_orthogonal, C416_sweeps, C416_white, C417_max, C417_refuted, C421_jade, C422_gain, C422_on, C422_refuted, C422_two, C423_refuted, C433_minimal, C433_no_worse, C433_value, C434_rotation, C435_contrast, C435_sweep, C436_axes, C436_refuted, C437_ends, C437_refuted, C437_sweeps, C438_quits, C438_refuted, C438_rotates, C438_two, C439_matrices, C439_refuted, C440_slowness, C441_refuted, C442_multi, C500_refuted.
* `FunctionalExtensionality.functional_extensionality_dep`: C213_sqrt, C223_connected, C223_order, C229_means, C230_white, C231_within, C232_optimal, C233_order, C234_known, C236_execute_inverse, C248_connected, C249_separate, C250_delta, C250_order, C250_slowest, C250_white, C251_unit, C252_accepted, C252_rejected, C283_pca, C284_sfa, C286_separate, C286_vartime, C287_fda, C289_gaussian, C416_num, C416_orthogonal, C416_sweeps, C416_white, C417_contrast, C417_max, C417_refuted, C418_execute_inverse, C418_inverse_execute, C418_matrices, C418_projmatrix, C418_recmatrix, C419_exact, C419_refuted, C419_telescope, C421_jade, C422_gain, C422_on, C422_refuted, C422_two, C423_diagonal, C423_exact, C423_refuted, C424_defl, C424_symm, C425_filters, C425_refuted, C426_ignored, C426_kept, C426_refuted, C426_switch, C427_ends, C427_orthonormal, C428_direction, C428_fixed, C428_symm, C429_independent, C429_stays, C430_overwritten, C430_refuted, C431_refuted, C431_right, C431_start, C432_case1, C432_case2, C433_minimal, C433_no_worse, C433_value, C434_rotation, C435_contrast, C435_sweep, C436_axes, C436_refuted, C437_ends, C437_refuted, C437_sweeps, C438_quits, C438_refuted, C438_rotates, C438_two, C439_matrices, C439_refuted, C440_slowness, C441_refuted, C442_multi, C446_execute_inverse, C446_inverse_execute, C447_enough, C447_exception, C447_index, C447_refuted, C448_neighbours, C448_refuted, C449_best, C449_matrix, C450_refuted, C450_training, C451_best, C451_centered, C451_constants, C451_coordinates, C452_combination, C452_refuted, C453_execute, C453_refuted, C453_train, C454_range, C454_row, C455_projection, C455_refuted, C456_qr, C456_refuted, C456_sums, C456_unnormalized, C457_few, C457_orthonormal, C457_refuted, C458_first, C458_refuted, C458_rows, C499_again, C499_error, C499_eta, C499_stop, C500_refuted, similar_moved.

## What is modelled

One paragraph for each model file (the header of the file); the comment of each definition cites the lines it models.

* **NodeModel.v**: mdp/signal_node.py: the [Node] base class as a state machine. What a concrete subclass computes ([_train], [_stop_training], [_execute], [_inverse], [_check_train_args], [is_trainable], ...) is a [behaviour]; everything below is parametric in it. Simplifications: floating point payloads are an arbitrary type [D]; [numx.dtype] objects are numbers; the error texts are dropped; hooks are finite programs that may replace the subclass' own attributes and may assign input_dim / output_dim / dtype through the public properties (signal_node.py:325,353,392), but do not write the private bookkeeping attributes [_training], [_train_phase], [_train_phase_started].
* **CumulatorModel.v**: VariadicCumulator / Cumulator, mdp/signal_node.py:753-791, as a [behaviour] of the Node machine. An array payload is its list of rows; the extra positional arguments of [train] are a list of arrays (lists of rows) too.
* **FlowModel.v**: training and execution of flows, mdp/linear_flows.py:90-420 and CheckpointFlow :588-635. A flow is a list of nodes (behaviour and state, see NodeModel); the nodes are distinct objects. All nodes share one type [I] of subclass attributes (a sum type of the attributes of the classes used). A data iterable is a function from the number of the pass over it to the elements that pass yields, which covers lists (same elements every pass), generators and one-shot iterators (nothing in the second pass). An element is an array with the additional arguments following it ([na] if it is a bare array). Printing, warnings and crash dumps are omitted.
* **FlowListModel.v**: the container methods of Flow, mdp/linear_flows.py:111-123, 463-585. Python objects: lists live in a heap, a Flow object holds a reference to a list ([self.flow]); Flow(l) keeps a reference to the caller's list (line 121), so two flows may share a list. A list item is a Node (a number; [dims] gives its input_dim and output_dim, constant during container operations) or some other object. crash_recovery and verbose are omitted.
* **GraphModel.v**: mdp/graph/graph.py:21-403 (directed multigraphs). Node and edge objects are numbered in the order of creation (object identity); data slots are omitted. [g_ends], [g_ein], [g_eout] are the attributes of all objects ever created, [g_nodes] and [g_edges] are Graph.nodes and Graph.edges.
* **ExtModel.v**: the extension mechanism: mdp/extension.py 290-487 (activation and deactivation, context manager, decorator). Classes, attribute names and extension names are numbers. A class has its own dictionary and an MRO. Simplifications: - metaclass attributes and data descriptors of the metaclass play no role in attribute lookup on a class; - attribute names do not start with the two prefixes of extension.py:40-50 (three kinds of keys, below); - the registry does not change while extensions are activated and deactivated (ExtensionNodeMetaclass, extension_method, extension_setup and extension_teardown, :76-242, which fill it, are not modelled); the nested dictionaries class -> attribute -> value of one extension are given as one list of (class, attribute, value), in the order of iteration; - setup and teardown functions either return or raise, and have no effect on classes or extensions.
* **SwitchModel.v**: mdp/hinet/switchboard.py. Numbers are mathematical integers: the [int32] of the connection arrays is taken as unbounded. A row of data is a list; [_execute] and [_inverse] act on every row of a matrix in the same way (x[:, connections]), so rows are modelled. The dtype is not modelled. numx.argsort with equal keys is unspecified (quicksort), so it is a parameter restricted by [is_argsort] in the theorems.
* **LayerModel.v**: mdp/hinet/layer.py: Layer, CloneLayer, SameInputLayer. A layer holds a list of references to node objects; the same object may occur several times (CloneLayer, Layer([node]*n)). A node object is a class [obj] (its methods, arbitrary) with a state in the heap. Data are matrices as lists of rows over an arbitrary type of numbers. A matrix without rows has no column count here (Node._check_input rejects such input). Additional arguments are forwarded unaltered to every node (layer.py:155, 161, ...): they are part of the methods here. Setting the dtype of the nodes (layer.py:117-120) is not modelled, and the result array takes every number as it is (in the code it has the dtype of the first node's output, :195).
* **FlowNodeModel.v**: mdp/hinet/flownode.py: FlowNode, a flow wrapped into a node. The enclosed flow is a FlowModel flow; the FlowNode's own Node attributes are a record. Additional arguments of train go to the node being trained (flownode.py:142-149). Not modelled: the automatic training of Node._pre_execution_checks for a FlowNode whose training has not begun, additional arguments of execute, verbose printing.
* **SchedModel.v**: mdp/parallel/scheduling.py: result containers and the base class Scheduler (tasks are executed in add_task). A call either returns, raises, or blocks forever because the lock is still held by an earlier call that raised (one client thread; threading.Lock is not reentrant). verbose printing is not modelled.
* **ProcModel.v**: mdp/parallel/process_schedule.py: ProcessScheduler and its worker processes, as a transition system. One client thread calls the scheduler, one thread per task talks to a worker process through its two pipes. A step is one access to shared data (or a critical section that does not block), so all interleavings are covered. [call c d] is the result of the callable [c], None if it raises. A waiting loop (no free process, open tasks) is a step back into the waiting state resp. no step. Not modelled: pickling, verbose output, setup_environment, failure to start a thread, several client threads. [strict] restricts the clients (see [step]).
* **ThreadModel.v**: mdp/parallel/thread_schedule.py: ThreadScheduler, as a transition system. One client thread, one thread per task; a step is one access to shared data or a critical section, so all interleavings are covered. [call c d] is the result of the callable [c], None if it raises. copy_callable (a pickled copy of the fork) is not modelled: callables are values. Not modelled: verbose output, failure to start a thread, several client threads.
* **ParallelModel.v**: mdp/parallel/parallelflows.py (ParallelFlow with a scheduler) and the fork/join methods it relies on. Nodes are values of an abstract type with the methods used here; a method that raises is not modelled except fork (None: NotForkableParallelException). The training data of a node is a list of chunks that is iterated once per training phase (an iterable, not an iterator). The scheduler runs a list of tasks, each with a fork of the callable; the order in which the results arrive is a parameter ([order]). Nodes with use_execute_fork() and the extension mechanism are not modelled here.
* **CovModel.v**: mdp/utils/covariance.py and of cov2, rotate, permute, mult_diag of mdp/utils/routines.py, in exact rational arithmetic. A row is a function from column indices to rationals, a chunk a list of rows, a matrix a function of two indices. Shapes, dtypes, casts and the round-off warning are not modelled; in-place operations are modelled by the new value. [None] is the value None of the accumulators.
* **RoutModel.v**: functions of mdp/utils/routines.py: comb, cov_maxima, orthogonal_permutations (with itertools.product), izip_stretched, weighted_choice, bool_to_sign, sign_to_bool. Numbers are exact: integers Z for comb, rationals Qc otherwise.
* **MiscModel.v**: nodes of mdp/nodes/misc_nodes.py: hit parade, time frames, time delay, sliding window, cutoff, adaptive cutoff, eta values. Shapes of blocks and dtypes are not modelled. A data array is the list of its rows. An array whose columns are cut into [time_frames] blocks of input_dim columns is a list of rows, each the list of its blocks.
* **ExpModel.v**: mdp/nodes/expansion_nodes.py: nmonomials, expanded_dim, PolynomialExpansionNode, GeneralExpansionNode. PolynomialExpansionNode._execute works column by column of dexp; all samples are treated alike, so the model expands one sample, the list of its values. Values are of any type with a product.
* **RecModel.v**: mdp/nodes/recursive_expansion_nodes.py: the recursions, process, RecursiveExpansionNode._execute, and the domain transformation of NormalizingRecursiveExpansionNode. All samples are treated alike, so the model expands one sample. Numbers are exact rationals; division by zero (x = -1 for the Legendre rational functions) gives 0 instead of infinity. A column of result not written yet (np.empty) is None.
* **CacheModel.v**: mdp/caching/caching_extension.py: the globals of the module, set_cachedir, activate_caching, deactivate_caching, set_instance_cache and the execute method of CacheExecuteExtensionNode. A node has a class and a state (all that pickle sees of it). [pre] is Node._pre_execution_checks: the state afterwards and whether it returned normally; [val] is what _execute returns (None: it raises); _execute does not change the node, as the warning in the docstring of the extension demands. joblib.Memory(dir).cache(f)(node, x) is modelled as a table in the directory, keyed by class and state of the node and by x: a stored value is returned without calling f, else f is called and the value stored unless f raises. Nodes are compared by identity.
* **ClassModel.v**: mdp/classifier_node.py (rank, ClassifierCumulator) and of SimpleMarkovClassifier, NearestMeanClassifier and KNNClassifier in mdp/nodes/classifier_nodes.py. Labels are of any type with decidable equality. Numbers are exact rationals; a data point is the list of its values. A dict is the list of its items in order of insertion. The order in which python iterates over a set of labels is a parameter.
* **HopModel.v**: DiscreteHopfieldClassifier, mdp/nodes/classifier_nodes.py:242-357, in exact arithmetic. A pattern is the list of its truth values; the states of the net are lists of 1 and -1. The orders in which numx_rand.shuffle arranges the rows are a parameter: [orders t] is used in sweep t. A while loop is a function with fuel; None: out of fuel.
* **KMeansModel.v**: KMeansClassifier, mdp/nodes/classifier_nodes.py:360-452, in exact arithmetic: comparing norms is comparing squared distances. Points are lists of d values. The choice of random.sample is a parameter.
* **PercModel.v**: PerceptronClassifier, mdp/nodes/classifier_nodes.py:33-115, and SignumClassifier :12-30, in exact arithmetic (the learning rate 0.1 is 1/10).
* **GaussModel.v**: GaussianClassifier, mdp/nodes/classifier_nodes.py:455-615, in exact arithmetic. Determinants, inverses and the gaussian density are not computed: _sqrt_def_covs and inv_covs hold the covariance matrices they belong to, [singular] tells whether the determinant is 0, and [density] is the value of the density with given covariance and mean at a point. [sorted] is list.sort for the labels.
* **OnlineModel.v**: mdp/signal_node_online.py: OnlineNode, on top of the model of Node (NodeModel). The attributes of an OnlineNode are those of a Node, the training iteration, the training type (true: 'batch', false: 'incremental') and those of the subclass. The random number generator is left out. Hooks are programs as in NodeModel; they read the iteration but do not write it. A channel (third entry of a tuple of _train_seq) returns an array; what the one of the last phase returns is not used.
* **OFlowModel.v**: training in mdp/linear_flows_online.py: OnlineFlow (:98-232) and CircularOnlineFlow (:417-524). A flow is a list of nodes, distinct objects: a plain Node (NodeModel) or an OnlineNode (OnlineModel), with the number of training arguments it needs (len(_get_required_train_args(node))). An element of the data is an array, bare or with one tuple of arguments per node. Printing, progress bars and crash dumps are omitted; a node that is itself a flow (raising FlowExceptionCR) too.
* **OContModel.v**: the container methods of OnlineFlow and CircularOnlineFlow, mdp/linear_flows_online.py:83-92, 234-346, 398-415, 526-663, with Flow.pop (linear_flows.py:580-585). One flow object with a list of its own (FlowListModel treats sharing of lists). A list item is a Node (a number; [dims] gives its dims, [kind] whether it is an OnlineNode, a Node not in training or a Node in training) or some other object. [o_keys] are the nodes for which _train_arg_keys_list and _train_args_needed_list were computed.
* **StatsOnlineModel.v**: mdp/nodes/stats_nodes_online.py: OnlineCenteringNode and OnlineTimeDiffNode, as subclasses of OnlineNode (OnlineModel), in exact rational arithmetic. The payload of an array is the list of its rows; a row is a function from column indices to rationals.
* **BiModel.v**: bimdp/binode.py: BiNode (execute, train, stop_training and the handling of messages). A message is a Python dict with string keys, an ordered association list. Messages are objects that are modified in place, so they live on a heap and are passed by reference. Simplifications: node ids are strings or None; methods have positional-or-keyword parameters only; the message in the result of a method is a dict or None; stop_result is a list with one entry per training phase (for one phase the code takes the entry itself), the empty list for None.
* **BiFlowModel.v**: bimdp/biflow.py: BiFlow (execution, training, jumps) and BiCheckpointFlow. A flow is a list of nodes, distinct objects: BiNodes (BiModel) and normal Nodes. The data is already sanitised (_sanitize_iterables :447-468, _sanitize_training_iterables :426-445): one list of (x, msg) or (x, msg, target) per call or per node. A loop can run forever in the code (jumps), so execution takes fuel; None means that the fuel was not enough. The log of the nodes executed is a ghost.
* **BiMsgModel.v**: MessageResultContainer, bimdp/biflow.py:40-88. Lists are mutable objects in a heap, the other values are immutable. An array is the list of its rows; arrays of one key have the same row shape, so numpy.concatenate appends their rows (its ValueError for other shapes is not modelled).
* **OFlowNodeModel.v**: mdp/hinet/flownode_online.py: OnlineFlowNode and CircularOnlineFlowNode, with FlowNode.__init__ (mdp/hinet/flownode.py:24-63). The internal nodes are those of OFlowModel (Nodes and OnlineNodes). The node itself has the attributes of an OnlineNode that concern the training; its dimensions, dtype and random number generator are not modelled (the data have the right ones), nor is _fix_nodes_dimensions, which is called after the last stop_training. Additional arguments of train are passed to every internal node by the code; here there are none.
* **NGasModel.v**: mdp/nodes/neural_gas_nodes.py: GrowingNeuralGasNode and NeuralGasNode, on top of the model of graphs (GraphModel). Positions are vectors of rationals, exact arithmetic; the data slots of nodes and edges are functions of their numbers. argsort, argmax, the square root, the decay factors of NeuralGasNode, random positions and the permutation of the data are parameters (argsort does not say how it orders equal distances). The state after an exception is kept.
* **RegModel.v**: mdp/nodes/regression_nodes.py: LinearRegressionNode. Exact arithmetic over the rationals; arrays are lists of rows. The inversion function (utils.inv or utils.pinv, chosen by use_pinv :114-117) is a parameter, None for LinAlgError. The input dimension is fixed; the rank of the target array is not modelled. The state after an exception is kept.
* **PCAModel.v**: mdp/nodes/pca_nodes.py: PCANode and WhiteningNode, with the range handling of mdp/utils/_symeig.py and nongeneral_svd of mdp/utils/routines.py. Exact arithmetic over an ordered field; a row is a function of the column index, a chunk a list of rows. The input dimension is fixed. The numerical routines (eigh of LAPACK, svd, sqrt) are parameters. [None] stands for an attribute that was deleted or is None. The state after an exception is kept. The debug argument, dtypes, warnings, the check of the rank of arrays and output_dim given as a float greater than 1 or a negative number are not modelled.
* **SymeigModel.v**: mdp/utils/_symeig.py (_symeig_fake with a second matrix) and mdp/utils/symeig_semidefinite.py (the methods pca and svd and the detection of blank inputs). Exact arithmetic over an ordered field; the matrices are functions of two indices below a dimension, a matrix of eigenvectors is the list of its columns. eigh, svd and sqrt are parameters. The arguments eigenvectors, turbo, type and overwrite, dtypes and imaginary parts are not modelled, nor are the methods reg and ldl.
* **SFAModel.v**: mdp/nodes/sfa_nodes.py: SFANode. Exact arithmetic over an ordered field, conventions as in PCAModel.v; the input dimension is fixed. The solver of the generalised eigenvalue problem is a parameter which depends on the method set; SymeigModel.v has models of several of them. The solver does not change the matrices it is given (overwrite is not modelled). [None] stands for an attribute that was deleted. The state after an exception is kept. The rank_threshold and warnings are not modelled.
* **FDAModel.v**: mdp/nodes/fda_nodes.py: FDANode. Exact arithmetic over an ordered field, conventions as in PCAModel.v; the input dimension is fixed. The labels are natural numbers (in the code any hashable values); the dictionaries means and tlens are one function from labels. The order in which Python goes through a set of labels, the solver of the generalised eigenvalue problem and the pseudoinverse are parameters. [None] stands for an attribute that was deleted. The state after an exception is kept.
* **QuadModel.v**: mdp/utils/quad_forms.py: QuadraticForm, and of SFA2Node in mdp/nodes/sfa_nodes.py. Exact arithmetic over an ordered field, conventions as in PCAModel.v. numx_linalg.eig, argsort, solve, qr and the square root are parameters; real parts are not taken. The tolerances of the test for symmetry, the machine epsilon of get_extrema and the epsilon of the bisection are parameters. The argument x0 of _maximize, which no caller uses, is not modelled. The bisection takes fuel.
* **VSFAModel.v**: VartimeSFANode (mdp/nodes/sfa_nodes.py:376-612) and, over an ordered field, of VartimeCovarianceMatrix (mdp/utils/covariance.py:143-339). Conventions as in SFAModel.v; sqrt(dt) * sqrt(dt) is taken as dt. A chunk has at least one row. [junk] is the content of the memory returned by numx.empty. An exception of type Exception is VRaise; TypeError of a list as dt is not modelled.
* **OLayerModel.v**: mdp/hinet/layer_online.py: OnlineLayer, CloneOnlineLayer, SameInputOnlineLayer, on top of the model of layers (LayerModel). The methods of Layer, CloneLayer and SameInputLayer are those of LayerModel; train, stop_training and the checks before execute and inverse are the ones of OnlineNode (mdp/signal_node_online.py), which come after Layer in the method resolution order. Random number generators are identities. The dtype of the nodes and additional arguments are not modelled (see LayerModel), nor is a node that is not a Node (layer_online.py:52-53) or a generator of a wrong type (signal_node_online.py:97-99).
* **GSFAModel.v**: mdp/nodes/gsfa_nodes.py: CovDCovMatrix and GSFANode. Exact arithmetic over an ordered field; a data array is the list of its rows, a row a function from the column to the entry; the dimension is fixed, data have it. Numbers of samples and of differences are elements of the field (they are weighted). A division of a number by zero raises ZeroDivisionError (numbers are Python numbers, not numpy ones); a division of an array by zero gives nan: this is the outcome [GNan], which is not followed any further. The state after an exception is kept. Weights are scalars, labels are natural numbers. Not modelled: numpy arrays as block sizes, negative indices in a dictionary of edges, negative half-widths, half-width 0 of the mirroring windows for a single sample, printing (but verbose is modelled where it has another effect), overwriting of the matrices by the solver.
* **ParNodeModel.v**: mdp/parallel/parallelnodes.py, parallelclassifiers.py and parallelhinet.py: fork and join of the nodes which can be trained in parallel. The nodes are those of PCAModel.v, SFAModel.v, FDAModel.v, VSFAModel.v, ClassModel.v and GaussModel.v. A chunk has at least one row, so that CovarianceMatrix._cov_mtx is None exactly as long as _tlen is 0. The state after an exception is kept. The dimensions and dtypes of a node and its fork agree; the input dimension is fixed. A join takes over objects of the fork: in the models of the nodes the objects are values; [ref_join] is a model with references. How the extension mechanism attaches the methods to the classes is in ExtModel.v; a class inherits _fork and _join of its base class.
* **IncModel.v**: mdp/nodes/pca_nodes_online.py (CCIPCANode, CCIPCAWhiteningNode), mdp/nodes/mca_nodes_online.py (MCANode) and mdp/nodes/sfa_nodes_online.py (IncSFANode), with the parts of OnlineNode (mdp/signal_node_online.py) they go through. Numbers are elements of an ordered field, [sq] is the square root. A vector is a function from indices to numbers, a matrix the list of its columns; an array of samples is its number of columns and the list of its rows. What numpy computes after a division by a zero norm (nan, a warning but no exception) is not followed: such a call returns [XNan]. (MCANode without normalization: the division by l only touches the matrix for the next components.) Data types, the shape of a sample (rank 2 assumed), stop_training and the end of the training phase are left out; they are in OnlineModel. The random matrices 0.1 * randn(...) are arguments.
* **NipModel.v**: mdp/nodes/nipals.py (NIPALSNode), with the parts of Cumulator (mdp/signal_node.py) and PCANode (mdp/nodes/pca_nodes.py) it goes through. Numbers are elements of an ordered field, [sq] is the square root. A matrix X of data is the number n of its columns and the list of its rows, a row is a function from indices to numbers. A component which numpy computes as nan (0/0: no exception, a warning) is [None]; from then on X is nan and so are all the components which follow. Data types are left out, and input_dim is a constructor argument here (it is set by the first call of train).
* **ExtRegModel.v**: the registration of extensions: mdp/extension.py 60-242 (the registry, extension_method, extension_setup, extension_teardown, ExtensionNodeMetaclass). Classes, attribute names, extension names and functions are numbers, values as in ExtModel.v. Dictionaries are association lists in the order of insertion. Simplifications: - the MRO of a class is given with its definition (the C3 linearization of type.__new__ is not modelled), and so is its dictionary, as it is after NodeMetaclass.__new__ (the docstring machinery, and cls.DOC_METHODS = [] :193); - the attributes which are not registered (_NON_EXTENSION_ATTRIBUTES :46-52) are left out of the dictionaries; extension_name is a field of its own; - type.__new__ raises nothing; - the functions used as setup and teardown only matter by whether they raise.
* **BiFlowNodeModel.v**: bimdp/hinet/biflownode.py: BiFlowNode, a BiFlow used as a node, with the parts of bimdp/biflow.py it uses (_target_to_index, _execute_seq, _request_node_id), and of the loop of CloneBiLayer._execute (bimdp/hinet/bilayer.py). Unlike BiFlowModel.v, flows can be nested: a node is a BiNode, a normal Node or a BiFlowNode with the nodes of its flow and with its attribute _last_id_request. The BiNodes and normal nodes are numbers; what their methods do to the data x (None included), the message and the state W of all of them is a parameter. Simplifications: - all nodes are distinct objects, ids are strings; - the part of BiNode.execute and BiNode.train which reads the message (bimdp/binode.py, see BiModel.v) is the parameter [hdr]: it gives the message without the keys for this BiFlowNode, the target, and whether the method is 'inverse'; - the data checks of a BiFlowNode (_pre_execution_checks, _check_input) pass: the node is trained or in its training phase, and dimensions and dtype are not fixed by the BiFlowNode; - the tuples returned have two or three entries (other lengths raise in the code); - execution takes fuel; None means that it was not enough.
* **GradModel.v**: bimdp/nodes/gradient.py: the extension 'gradient', which gives the total derivative of what a node or a BiFlow executes, with the parts of bimdp/binode.py (execute), bimdp/biflow.py (_execute_seq), bimdp/hinet/bilayer.py (CloneBiLayer._execute) and mdp/hinet/layer.py it uses. A sample is a function of the index of the variable; the number of columns is stored with the data. Simplifications: - numbers are those of an ordered field; dtypes are not modelled; - the nodes are IdentityNode, SFANode, QuadraticExpansionNode, SFA2Node, Layer, SameInputLayer, Switchboard, CloneBiLayer (the nodes inside are BiNodes), and nodes without an implementation of the gradient. Of an SFANode there are sf and the product with avg (_bias); the training is modelled in SfaModel.v and QuadModel.v; - executing a node in its training phase raises TrainingException (the code tries to stop the training first); - the message has the keys method and grad only; no targets are used, so that the BiFlow goes from node to node; - samples and gradients have the same number when they are used together.
* **CloneBiModel.v**: bimdp/hinet/bilayer.py: CloneBiLayer, with the parts of mdp/hinet/layer.py (CloneLayer._inverse) and mdp/signal_node.py (_pre_inversion_checks) it uses. The methods of the node inside (execute, train, stop_training) are parameters: they get an array or None and a message or None, and give a result or an exception, and change the state of the node. Simplifications: - an array with at least two axes has an identity (for `is`), a number of columns and rows; the part i of an array made by hsplit has the identity i :: identity; - values of a message which are no such arrays (one axis included) are VNone, VBool or VObj; use_copies is None or a bool; - messages are values: that the code modifies the given dict is modelled for the message handed on only; - copy() of the node gives a state by a parameter, since the arrays of the copy are other objects; - the message given to _execute, _train and _stop_training is that which BiNode.execute, train and stop_training (BiModel.v) hand on.
* **SwitchBiModel.v**: bimdp/hinet/biswitchboard.py (BiSwitchboard, _binode_create_switchboard), bimdp/biclassifier.py (BiClassifier._execute) and mdp/hinet/switchboard_factory.py, upon SwitchModel.v (mdp/hinet/switchboard.py). Simplifications: an array of a message with at least two axes is a number of columns and a list of rows (the type of the entries may stand for further axes); other values, arrays with one axis and instances of subclasses of ndarray included, are objects. The checks of BiNode.execute are not repeated here (BiModel.v). Parameters of the factory are integers, pairs or truth values; the constructors get keyword arguments and raise TypeError for names they do not have and for missing ones, as Python does.
* **XsfaModel.v**: mdp/nodes/xsfa_nodes.py: ProjectionNode, NormalizeNode, and the schedule of training phases of XSFANode. Numbers are rationals; a row of data is a list, and a function of the column (0 outside) where CovModel.v (mdp/utils/covariance.py) is used. Simplifications: rows shorter than output_dim (numpy would clip or broadcast the slices) are refused by ProjectionNode here; numpy.sqrt is a parameter. Of XSFANode the modules in the internal flow (what _get_source_extractor returns) are their number S and the count of the phases they went through; how many phases a module has is computed from the nodes it is composed of. The data that pass through the modules are not modelled. The other checks of Node.train and Node.stop_training (signal_node.py:591-639) are NodeModel.v; here only the counting is repeated.
* **FAModel.v**: mdp/nodes/em_nodes.py: FANode. Numbers are those of an ordered field. A d x k matrix is a function of two indices, of which only those in range are used. [inv] is utils.inv (the theorems ask that what it returns is an inverse). The covariance matrix and the mean of the training data (CovarianceMatrix with bias=True) are CovModel.v; here they are parameters. The logarithm and the determinant occur only in the likelihood, which is an arbitrary function of the loading factors and the noise variances (of their values before the cycle changes them, :136, :155-157), and in the scale of the random initial factors, so that the initial factors are arbitrary. -inf is only the value of old_lhood in the first cycle, where it is not compared. Random noise of generate_input and dtypes are not modelled.
* **ConvModel.v**: mdp/nodes/convolution_nodes.py: Convolution2DNode. Numbers are those of an ordered field; dtypes and rounding (of the Fourier transform in particular) are not modelled. A data point or filter of shape (h, w) is the row-major list of its h*w numbers, so that reshape keeps the list. scipy.signal.fftconvolve and convolve2d are modelled by [conv] for images and filters with at least one row and one column: their result, its shape, and ValueError in mode 'valid' when neither argument is at least as large as the other in both axes; a wrapped or reflected index is taken modulo the (doubled) size. Assigning to y[n_im, n_flt, :, :] broadcasts as numpy does. ndarray.resize truncates or appends zeros.
* **RBMModel.v**: mdp/nodes/rbm_nodes.py: RBMNode and RBMWithLabelsNode. Numbers are those of an ordered field with an arbitrary function [ex] in the place of exp; the theorems ask for the laws of the exponential function, and RBMProps.v instantiates them with the real exp. A batch of n rows is a function of the row and the column. random(shape) takes the next numbers of a stream [u], row by row; the random initial weights are arbitrary. The arrays w, bv, bh are changed in place (:160, :166, :176), so that the attributes of the node change with them. Empty data are rejected by Node._check_input. dtypes, printing and rounding are not modelled.
* **ParBiModel.v**: bimdp/parallel/parallelbiflow.py: what ParallelBiFlow and ParallelCheckpointBiFlow do with the results of their tasks, with their schedulers and with their arguments, and of bimdp/parallel/parallelbihinet.py: ParallelCloneBiLayer. The flows are the nested flows of BiFlowNodeModel.v, the messages of an execution those of BiMsgModel.v, the schedulers those of ParallelModel.v. Simplifications: - the nodes of the flow in training are BiNodes or normal nodes, as in BiFlowNodeModel.v; - training phases are run with the nodes themselves, as in _local_train_phase; for the forks and joins of nodes see ParallelModel.v and ParNodeModel.v; - the data is already sanitised: one list of (x, msg) for a node, or of (x, msg, target).
* **CoroModel.v**: bimdp/binode.py: binode_coroutine (:489-565), bi_reset (:295-314) and _combine_result (:412-438) for the results of coroutines, with the generators of Python 3. A generator object is the suspended body, a running or a finished body; the objects live in a heap. The body of a coroutine is an arbitrary function that gets the values sent to it and the whole node, and yields, returns or raises. Arguments and results are values of an arbitrary type: the adaptation of the signatures (_wrap_function, :534-542, :562-563) and the parsing of messages are not modelled here.
* **ICAModel.v**: ProjectMatrixMixin, ICANode and CuBICANode of mdp/nodes/ica_nodes.py and of JADENode of mdp/nodes/jade.py, with exact real arithmetic. A matrix is a function of row and column; the numbers of rows and columns are passed along. dtypes, the printed messages and the bookkeeping of Node (train, Cumulator) are not modelled; matrix products, rotate and the eigenvalue decomposition behind WhiteningNode are those of CovModel.v and PCAModel.v. numpy's arctan2, cos, sin, sqrt are the real functions; arctan2(0, 0) = 0.
* **FastModel.v**: FastICANode of mdp/nodes/ica_nodes.py, with exact real arithmetic, and of the arguments of TDSEPNode. Vectors are functions of the component, matrices functions of row and column, as in ICAModel.v. dtypes, verbose output and the attributes convergence and convergence_fine are not modelled (the last convergence, which core returns, is modelled for the symmetric approach). Dividing by zero (nan in numpy) leaves the model: the result is then None.
* **IsfaModel.v**: ISFANode (mdp/nodes/isfa_nodes.py) and TDSEPNode (mdp/nodes/ica_nodes.py:1024-1111), with exact real arithmetic. A matrix is a function of row and column, the time delayed covariance matrices are a function of the number of the lag. The estimation of the covariance matrices and the whitening are those of CovModel.v and PCAModel.v: the model starts with the matrices after _fix_covs. dtypes, the printed messages and the parameter complete (contrast on a grid, for tests) are not modelled. numpy's arctan2, cos, sin are the real functions. Random choices (numx_rand.shuffle of the rotation axes, random_rot and permutation of the perturbations) are arguments.
* **LleModel.v**: LLENode and HLLENode (mdp/nodes/lle_nodes.py), with exact real arithmetic. A matrix is a function of row and column, as in ICAModel.v. numpy's argsort, linalg.solve, linalg.qr, the singular values and symeig are parameters; what is assumed about them is stated with the theorems. dtypes, the printed messages, warnings and the bookkeeping of Node and Cumulator are not modelled; the branch svd=True finds the same null space with nongeneral_svd and is not modelled.
* **UtilsModel.v**: small utilities: progressinfo (mdp/utils/progress_bar.py), _LabelNormalizer (mdp/nodes/svm_classifiers.py), _memory_size_str and _format_dig (mdp/utils/introspection.py) and the generation of BiNode classes (bimdp/nodes/autogen.py). Numbers are exact rationals instead of floats. The text written by autogen is modelled as the signature and the call which Python reads from it.
* **CompactModel.v**: the training mode 'compact_classes' of mdp/nodes/gsfa_nodes.py: Hamming_weight and CovDCovMatrix.update_compact_classes. Exact arithmetic as in GSFAModel.v; labels are integers. numx.argsort is a parameter; the elements of the set n_free are listed in increasing order. log2 is exact; numx.arange with a fractional step gives the numbers above the limit. Not modelled: printing, a numpy array as block_sizes (a list is converted to one), block sizes which are neither.
* **IgsfaModel.v**: mdp/nodes/gsfa_nodes.py: iGSFANode, SFANode_reduce_output_dim and PCANode_reduce_output_dim. The nodes inside are the models of GSFANode ([gsfa]) and PCANode ([pca]); the linear regression, the QR decomposition and pinv are parameters. Exact arithmetic over an ordered field; a data array is the list of its rows, a row a function from the column to the entry; the input dimension is fixed, data have it. The expansion node is a function on rows with its output dimension; the node before the expansion is a function from the data to a function on rows ([None]: it raises). A division of an array by zero gives nan, which is not followed: the value of the field is arbitrary there, except for [p_expl] (None). Multiple training keeps the state after an exception, but num_sfa_features_preserved is only assigned if it is accepted; a training in one batch that raises leaves only x_mean and output_dim (the next call of train assigns all other attributes anew). Not modelled: negative integers as delta_threshold, max_length_slow_part = 0, printing, nonlinear_inverse (:1876-1928), dtypes.
* **OdModel.v**: the OrderedDict of mdp/utils/_ordered_dict.py:5-99 (used if collections has none). The lists [key, prev, next] are cells of a heap; self.__end is the address of the sentinel, self.__map a dictionary from keys to addresses, and the inherited dict is an association list whose order is never observed. Keys are compared by a decidable equality. The methods of DictMixin which are used (pop, update, items) are those of the module UserDict of Python 2, which is not part of the repository: pop reads the value and deletes the key, update sets the items one after the other, items reads the values of the keys in the order of __iter__.
* **ConfModel.v**: mdp/configuration.py: the registry of dependencies (:88-171), the choice of the numerical backend (:265-335), the test of versions (:354-382) and set_configuration (:434-566). The environment and the installed modules are the input: a module can be imported or not, and an attribute which is read of it is there or not. Not modelled: the texts of the exceptions (a message is a string of the input), the replacement of members of scipy (:299-303), get_symeig, the monkeypatch of pp (its result is an input), and the value of tempfile.gettempdir.
* **TmpModel.v**: TemporaryDirectory, mdp/utils/temporarydir.py:11-88. The file system is a tree of directories, files and symbolic links to absolute paths; names are numbers. The operating system is modelled as far as the code uses it: os.listdir, os.path.isdir, os.remove and os.rmdir with their errors; [maxlinks] is the number of links after which a path is refused (ELOOP). The entries of a directory in [locked] cannot be removed, and a directory in [hidden] cannot be listed (EACCES). Not modelled: other processes, the handling of None'd globals (:39-45), mkdtemp.
* **RotModel.v**: random_rot, mdp/utils/routines.py:178-203, over a real closed field (exact arithmetic). [x n i] is the entry i of the vector drawn in the step n of the loop; the dimension is [m.+1]. The cast of the draws to the dtype is not modelled: the draws are arbitrary. A division by zero (nan in numpy) is 0 here, the theorems exclude it.
* **FixModel.v**: fixup_namespace and _fixup_namespace_item, mdp/utils/__init__.py:123-227. Objects, names and submodules are numbers. The attributes of an object do not change while the function runs, only its __module__ does. The value of __module__ is that of the package ([MSelf]), that of a submodule "<mname>.<n>" ([MSub n]), anything else ([MOther]), or there is none. A bound method reads __module__ of its function. Simplified: an instance has a __module__ of its own (in the code it is that of its class until it is set). Not modelled: the messages of FIXUP_DEBUG, the lookup in sys.modules.
* **EtaModel.v**: SFANode.get_eta_values, mdp/nodes/sfa_nodes.py:344-374, over the reals; SFANode as in SFAModel.v. The type of the result (_refcast) is not modelled.
* **TraceModel.v**: the tracing wrappers in bimdp/inspection/tracer.py: InspectionHTMLTracer._standard_tracer_decorate and _undecorate (:310-368), TraceDecorationVisitor (:371-445) without CloneBiLayer, and the part of trace_execution (:172-224) which decorates, runs and undecorates the flow. A node is a table of the attributes which the instance has of its own, on top of the methods of its class. A method of the class is a tree of actions: it may return, raise, or call another method of the same node (through its attribute, as self.name(...) does) and continue with its result. Python's recursion limit is the fuel: [None] is a call which did not return. The callback records its arguments; the HTML code it writes, its exceptions and __getstate__ of decorated nodes are not modelled.
* **SlideModel.v**: the bookkeeping of InspectionHTMLTracer (bimdp/inspection/tracer.py): _reset (:103-113), _tracer_callback (:226-255), _begin_HTML_frame (:259-274), _write_error_frame (:284-306) and trace_execution (:172-224) without the decoration of the flow, which is in TraceModel.v. A file name "<trace_name>_<index>.html" is its index. The execution of the flow is the list of the results of write_html in the calls of the callback, and its end. An exception of the callback ends the execution (nodes which catch exceptions are not modelled). File errors are not modelled.
* **SenderModel.v**: SenderBiNode._execute, bimdp/nodes/miscnodes.py:17-26; [rid] is _recipient_id. The message is a dict with one key.
* **SnapModel.v**: Models of parts of bimdp/inspection: the file names of the snapshots (tracer.py:721-749) and the order in which they are read (tracer.py:836-840), the index table (tracer.py:831-876, with the traces of the snapshots given), the sections of TrainHTMLSlideShow (slideshow.py:178-217) and PeekIterator (utils.py:65-92). HTML strings, pickling, the directories below the snapshot path and the choice of the node are not modelled; the numbers of slides of the traces are the input.
* **ShowModel.v**: the slideshow with sections: SectionHTMLSlideShow (mdp/utils/slideshow.py:349-446) with the controls of HTMLSlideShow (slideshow.py:107-171). The JavaScript of the templates is modelled, with the state of one slideshow; the HTML elements, the loading of the slides and the delay are not. A section id in JavaScript is a number (it stands for the text); section_ids[i] is [nth_error], [None] is undefined. [None] as a result of a loop means that the fuel is used up.
* **SvmModel.v**: the parameters and the results of LibSVMClassifier (mdp/nodes/libsvm_classifier.py:16-184). The library is not modelled: [names] are the names of svm_parameter._names, [attr] says which attributes an svm_parameter has, [default] are the values after svm_parameter("-q"), [const] are the constants of the module. Values are integers. The cumulation of the data is that of ClassModel.v. A keyword argument None or an empty string is [None].
* **PanelModel.v**: the panel with the links to the sections: html_controls_template of SectionHTMLSlideShow (mdp/utils/slideshow.py:493-515). A link is the id of the section and the index of the slide; the link before the first one is the empty text, [None]. The ids are those given to the constructor, since vars() is read before they are made strings (:363, :375); None is not an id.
* **SkModel.v**: apply_to_scikits_algorithms (mdp/nodes/scikits_nodes.py:155-195): the traversal of the modules of sklearn. Python modules and classes are numbers. [members m] are the members of the module [m] in the order of its __dict__, with a flag for a name which does not begin with an underscore. [alg c]: the class has fit, predict or transform; [sk m]: the name of the module begins with the prefix. The action does not raise and does not change the modules; its calls are recorded. [None]: the fuel is used up.

Libraries without counterpart in the code:

* **NodeSpec.v**: Vocabulary in which the properties of nodes are stated: what a legal sequence of hook calls is.
* **FlowSpec.v**: Vocabulary for the properties of flow training and execution.
* **PyList.v**: Python list semantics used by the container methods: indices, slices (CPython Objects/sliceobject.c PySlice_AdjustIndices, Objects/listobject.c list_subscript / list_ass_subscript). Part of the trusted base: it is the meaning given to [l[i]], [l[i:j:k]], [l[i:j:k] = v] and [del l[i:j:k]] on built-in lists.
* **OnlineLearn.v**: What an OnlineNode with one phase has learned: a principle for proving properties of its attributes over all histories of calls. The hooks are total: _check_params and _train replace the attributes of the subclass, the others do not change them.
* **OField.v**: Ordered fields with decidable order, and finite sums, vectors and matrices over them. The linear nodes (PCA, whitening, SFA, FDA) are modelled over an arbitrary ordered field, because eigenvectors of rational matrices are in general irrational: the theorems hold over the reals ([R_of]) and the Examples are computed over the rationals ([Qc_of]). An ordered field is a record, its laws are components of the record, not axioms.
* **LinAlg.v**: Facts about orthonormal systems over an ordered field: Bessel, Parseval, the spectral sum, and the inequality of Ky Fan.
* **GenEig.v**: The generalised eigenvalue problem A u = d B u over an ordered field: systems of B-orthonormal vectors on which A is diagonal, and the minimum principle of Ky Fan for them.

## What is not modelled

* Everywhere: rounding, overflow, nan and infinities, dtypes and casts (except the dtype attribute of Node), memory layout, warnings, printing, docstring
  machinery, Python 2 compatibility code.
* The metaclass NodeMetaclass, pickling, copying, `save`, and `__repr__` of nodes.
* In mdp/configuration.py get_symeig, the replacement of members of scipy and the test of parallel python; the html and svg output of mdp/hinet and bimdp, mdp/test.
* Nodes which are not listed above: in particular svm (but _LabelNormalizer and the parameters and probabilities of LibSVMClassifier) and scikits wrappers (but the traversal of the modules of sklearn); nonlinear_inverse, negative int thresholds and max_length_slow_part=0 of iGSFANode; svd=True of LLENode and HLLENode and the loop of HLLENode._stop_training (its steps are modelled one by one); the verbose output of ISFANode and the argument complete of its _givens_angle.
* mdp/parallel: the schedulers of pp_support.py; parallel versions of nodes which are not modelled.
* mdp/utils/slideshow.py and templet.py: everything but the controls of a slideshow, its sections and the links to them.
* bimdp: the class of the parallel BiFlow tasks with user-defined callables, inspection except for the wrappers of the tracer, the order of the snapshots, the sections of TrainHTMLSlideShow and PeekIterator, and of autogen.py everything but the signatures of the generated classes.
* symeig_semidefinite methods reg and ldl; the argument x0 of QuadraticForm._maximize.

## Properties that do not hold of the code

Each has a `_refuted` theorem with a concrete witness, and theorems for the cases in which it holds.

* C65, Failed calls leave a node unchanged. a rejected train fixes input_dim/dtype, a rejected execute closes the training phase. The guarded statement that does hold is proved.
* C66, Flow.train does not swallow errors. a TrainingFinishedException raised by a _train hook makes train return normally with phases untrained. Excluding that exception, C08 shows all data was seen.
* C67, After Flow.train every node is completely trained. a trainable node followed only by non-trainable nodes keeps its last phase open; C08 proves what does hold.
* C70, Slice assignment stores the given nodes. for one-shot iterators: the type check exhausts them and the slice is deleted. Sequences: C69.
* C71, Consistent node lists are accepted. for output_dim 0 followed by an unset input_dim (TypeError); proved otherwise.
* C75, dfs returns a depth-first order. nodes are marked when put on the stack, so a son can come after nodes it should precede. The set of nodes is right (C16).
* C77, remove_node removes any node of the graph. for nodes with a self loop: ValueError, node stays. Proved for nodes without self loop (last part of C18_effects).
* C14, Failed activation leaves no trace. on every name clash the attribute of the other extension is removed although it stays active.
* C78, Own method restored although a superclass is registered. the subclass method is lost. C12_restore is the guarded positive version.
* C79, Registration order does not matter. subclass registered first gets the inherited method copied. Positive version with the order condition: C12_restore.
* C80, Static and class methods are restored. static methods come back plain, class methods bound to the class. Positive version for plain values: C12_restore.
* C81, Re-exposed attributes are restored. . Positive version without repeated values: C12_restore.
* C83, A context with several extensions is like nested contexts. for dependent extensions (exit order is entry order); holds for independent ones (C13_contexts).
* C84, The prefixed name gives the original method. with a registered superclass and an unregistered class in between; holds without registered superclass (C12_restore).
* C85, A raising setup function leaves no trace. the clean-up deletes the own methods of the classes. Proved when no registered class defines the attributes itself.
* C86, Invalid connections are rejected. negative entries are accepted; is_invertible and inverse are then wrong.
* C87, Uncovered inputs are rejected. 3x1 image, 1x1 fields, spacing 2. Proved for spacing <= field size.
* C89, Spacings must be positive. spacing (-1,-1) accepted.
* C90, Channel indices are interpreted alike. for -1; proved for indices in range.
* C93, A layer trains only as long as some node does. a trained node with two phases gives the layer two phases though one is needed.
* C94, CloneLayer executes like Layer([node]*n). for nodes like TimeFramesNode; proved for row-wise nodes (C27).
* C96, Outputs with different numbers of rows are rejected. a single row is broadcast.
* C97, One node several times in a layer. for nodes with two phases.
* C98, FlowNode.execute equals the execution of its flow. with an unknown output_dim the first execute raises; whenever execute returns, the result is that of the flow (proved).
* C100, FlowNode.copy leaves the original as it was. the original's flow attribute becomes a Flow object, nested deeper with each copy.
* C101, A failing FlowNode.copy leaves the original usable. if deepcopy raises; proved for a raising node copy.
* C34, Scheduler lock discipline. a raising task, a missing callable or get_results without results leave the lock held; the guarded positive statement is C29_sequential_scheduler.
* C102, set_task_callable accepts what add_task accepts. a plain function is not wrapped by set_task_callable.
* C32, A worker uses the callable its task was submitted with. race between add_task and the thread that reads _last_callable_index; proved for clients that change the callable only while no task is open, and without caching.
* C33, ThreadScheduler respects n_threads. _n_active_threads is never increased.
* C103, ProcessScheduler.get_results survives a raising task. the task stays open, get_results never returns; proved to return if no task raises.
* C104, ProcessScheduler can be shut down after get_results. the result is stored before the process is given back; the threads do finish (C31_terminates).
* C105, A fork of the callable is called. for ProcessScheduler(cache_callable=False); C32_right_callable says what is called.
* C106, A raising task does not make other tasks fail. the dead process goes back to the free processes.
* C108, ThreadScheduler.get_results survives a raising task. the task stays open forever.
* C109, Parallel execution respects nodenr. nodenr is not passed to the callable.
* C110, A flow can be trained again after a failed parallel training. the flow stays 'underway', every later call raises.
* C111, Sample lists do not depend on completion order. for the order; the multiset of samples is right.
* C113, Schedulers for a trained flow are disposed of. None > 0 raises TypeError before the branch for this case.
* C114, ParallelCheckpointFlow trains serially without scheduler. the default train_callable_class makes the call raise.
* C115, Execution forks are joined once. the container keeps the flownode of earlier executions.
* C41, cov2 is a covariance. off by the product of the means divided by n-1.
* C118, fix resets the covariance object. for VartimeCovarianceMatrix: tchunk and xlast are kept; the other classes do reset.
* C119, Chunks of one row with varying time steps. for a chunk of one row dt[-1+1:] is the whole of dt, the gap is counted twice.
* C121, Weights of several covariance matrices. for numbers and lists; proved for arrays.
* C122, comb outside the range. for negative k (1 is returned); proved for k > N.
* C45, Time delay. for inputs shorter than the longest delay (ValueError); exact condition proved.
* C126, Hits are local maxima. while hits are missing any value far enough from the kept ones is taken.
* C127, Sliding window with gap 0. for gap 0; proved for gap >= 1.
* C129, Every cutoff fraction is accepted. a lower fraction of 1 raises IndexError; proved for fractions in (0,1).
* C131, Polynomial expansion of degree 0. assigning x to an empty array raises; proved for degree >= 1.
* C133, Recursive expansion with input_dim. Node.__init__ calls expanded_dim before degree is set; setting the dimension later works.
* C134, Recursive expansion of degree 1. for legendre_rational; proved for the other families.
* C135, Recursive expansion of degree 0. num_vars columns of ones; proved for degree >= 1.
* C137, Execution does not change its input. the transformation works in place on the array of the caller; nothing changes if the training data was inside the domain.
* C52, Caching contexts nest. for nested contexts: leaving the inner one switches caching off.
* C138, Caching after a failed check. the cached method is registered before the checks run, so after a failed check they are skipped on a cache hit; C51_transparent gives the condition.
* C139, What is cached. when caching is already active (classes of the first activation stay); proved from the deactivated state.
* C140, Switching instance caching. for an instance listed twice; proved if it is listed at most once.
* C141, The cache extension can be activated by name. no joblib memory exists before set_cachedir is called.
* C142, Labels accepted by ClassifierCumulator. anything but an array raises AttributeError after the data has been taken, and the node can never be stopped; proved for arrays.
* C143, Single label of SimpleMarkovClassifier. for strings, which are zipped character by character; proved for labels that are not iterable.
* C147, K-means within max_iter. _centroids stays None when max_iter is reached.
* C152, Failed stop_training of the Gaussian classifier. the entries appended before the failure stay, so that means and priors are assigned to the wrong classes; C150_fit holds for a node without failure.
* C155, A failed stop_training of an OnlineNode can be repeated. the phases before the failing one are closed again by the second call; C58_stop: a call that returns closes every phase once.
* C59, Online flow trains its terminal node on all data. a terminal Node that is not an OnlineNode is executed after its first element, which ends its training (with several phases a TrainingException is raised); proved for OnlineNodes.
* C60, Circular flow input rotation. set_output_node(len(flow)) is accepted and execute then raises IndexError. The rotation by set_input_node and the preservation of the output node by all operations elsewhere are proved.
* C156, OnlineFlow.train can be continued. _close_last_node closes a terminal OnlineNode with more than one phase. Proved for the other nodes.
* C158, OnlineFlow as a container. += changes the flow before the checks. Proved for the other operations and for histories in which no += fails.
* C159, append is +. append refuses a Node in training, + accepts it. Proved for all other nodes.
* C160, Stored input of a circular flow. the call is ignored if the input dim is unknown. Proved for known dims.
* C161, CircularOnlineFlow as a container. deleting and item assignment always raise, after the flow has been changed; insert raises before the output node. C60_output_kept: the operations that return keep the output node.
* C162, Inverse and concatenation of circular flows. a deque cannot be sliced; __add__ appends the flow itself as an item.
* C163, Online centering subtracts the average. after one row execute returns its input. Proved for more than one row. Exact rational arithmetic.
* C166, Online time differences in batch mode. x_prev is the last row of the previous block, and zeros of the shape of the first block after the first one.
* C168, A trained BiNode can stop. train(None, msg) does not mark the phase as started, so a node trained by messages only can never stop training. Proved for an array and the normal training method.
* C169, BiNode.train stays in the phase. with 'method': 'inverse' in the message, train runs _pre_inversion_checks, which stops the training. Proved for the normal training method.
* C170, Plain keys a method does not know are ignored. 'x' and 'self' are taken for arguments, the call raises TypeError. C170_bind says exactly when a call binds.
* C63, BiFlow jumps stay inside the flow. a relative target that leads before the front by more than one is not refused; the list index is negative and the flow goes on from its end. C63_walk: exact order of the nodes when no target leads there; C63_beyond: a target behind the end raises.
* C64, Message results are combined. if the same list object comes in two chunks (e.g. a list stored in the node), its content is multiplied. C64_combine: exact combination when the list objects are distinct.
* C171, Collecting results leaves the messages alone. the list of the first chunk is extended in place. Unchanged if a key comes once.
* C172, The collected message can be asked for again. get_message stores the concatenated arrays under the same keys, so the second call complains about arrays and other values for the same key. Proved without arrays.
* C174, The node in training is not executed. a target before the front wraps around and may hit the node. Proved for runs without such a target.
* C175, stop_training may start an execution. for the last node, BiFlowException is raised after the training phase has been closed. Proved for the other nodes.
* C176, All training phases see the same messages. keys addressed to a node are removed from the message of the caller, so they are missing in the second phase. Proved when no key is addressed to a node of the flow and the methods neither change nor return messages.
* C177, A flow without output array can be executed chunk by chunk. the second chunk without array raises although no chunk gave one. C177_arrays: the exact result.
* C178, Checkpoints of a BiFlow need not return anything. the code tests the type dict instead of the result; a result None ends the training with TypeError. Proved for functions that return a dictionary; the effect of the update is not modelled.
* C179, An unknown start target is reported. TypeError from the list index, for every unknown name and for the exit target. Known names start at the first node with this id.
* C183, Trained nodes are allowed in an OnlineFlowNode. train raises TrainingFinishedException at the trained node. Positive part: C182.
* C184, stop_training closes the internal nodes. TypeError, no node is stopped, if the first node is not trainable or if the circular node has more than one iteration (the placeholder function needs an argument). Proved otherwise.
* C192, Training leaves start_poss alone. if the array has the dtype of the node, refcast returns the array itself and the positions are updated in place. C192_cast: a converted array is a copy.
* C193, Neural gas keeps its nodes. for one node: IndexError after the node was moved. Proved for two and more.
* C194, Neural gas removes old edges. if the lifetime decreases (max_age_f < max_age_i): removing an edge from the list in the loop skips the next edge. Proved for lifetimes that do not decrease, where at most one edge is too old in a step.
* C197, Not more than max_epochs epochs. every call trains max_epochs epochs. C197_epochs: the exact number.
* C203, The constant term. the constant terms are the first row of beta. The formula for execute is proved.
* C205, Rejected targets leave the node unchanged. a first call with the wrong number of targets sets output_dim, so that a correct call with another number of outputs fails afterwards. Proved if output_dim is set; the data sums never change.
* C209, output_dim as a fraction of variance. for data without variance: d is empty but there is one component, explained_variance is nan. Proved if the total variance is not zero. Exact arithmetic over every ordered field; the eigenvalue routine returns an orthogonal matrix of eigenvectors with ascending eigenvalues, or raises. At least 2 observations.
* C211, output_dim is the number of outputs. output_dim above the input dimension n keeps all n components and output_dim stays; with svd=True it keeps only output_dim - n components (negative slice index); output_dim=0 keeps all. Proved for 1..n and None.
* C212, A failed stop_training can be repeated. _cov_mtx is deleted first, every later call of stop_training or train raises AttributeError.
* C214, inverse with n components. n smaller than the number of columns of y raises ValueError; inverse works only if min(n, number of components) is the number of columns of y.
* C216, Semidefinite problems are solved on the rank. for B = diag(4,9), which is positive definite, the pca variant leaves out the first input and reports rank_deficit 1. Proved otherwise. Exact arithmetic over every ordered field; the eigenvalue routine returns an orthogonal matrix of eigenvectors with ascending eigenvalues, or raises; exact square roots.
* C218, Blank inputs are found. the average runs over the rows of B where the first row is small. If the inputs uncorrelated with the first are exactly the blank ones, no input at all is left; an input that varies is left out if it is the first and uncorrelated with the others. Proved if no input is uncorrelated with the first, or the first is blank.
* C219, Nothing left raises a SymeigException. an IndexError is raised instead, for every matrix with nothing left (unless eigh of the empty matrix raises itself).
* C221, d are the delta values. the sum of squares is divided by the number of derivatives minus one (the matrix is not centred), so no nonzero d[k] is the mean. Everything else proved. Exact arithmetic over every ordered field; the solver returns a prefix of a solution of the generalised eigenvalue problem or raises (proved for the models of _symeig_fake and symeig_semidefinite_pca in C222_contract_none, C220_contract_pca, C222_contract_pca); at least 2 samples and 2 derivatives; output_dim not 0.
* C224, output_dim of SFA. _set_range assigns output_dim, which Node.set_output_dim rejects: every stop_training raises InconsistentDimException if output_dim is larger than input_dim. Proved otherwise.
* C225, stop_training of SFA can be repeated. for more data (AttributeError, although is_training() is True) and a smaller output_dim (InconsistentDimException, output_dim was fixed by the failed call). Proved for another method; the matrices are assumed not to be overwritten by the solver.
* C226, The first n slow features. for n = 0: all columns are returned. Proved for n > 0.
* C228, Rank deficit methods keep all features. with the method pca and two uncorrelated inputs of variance one, the slower one is lost, output_dim is 2 but there is one output, and inverse raises NodeException on it.
* C234, Unknown labels are rejected. KeyError is raised, but the observations are already counted in the covariance matrix and the mean of all data; a later stop_training succeeds with a wrong mean. Proved: KeyError for unknown labels, success for known ones.
* C235, stop_training of FDA can be repeated. _allcov and _S_W are deleted before the solver is called; every later call of stop_training and train raises AttributeError.
* C236, execute with n and inverse of FDA. a negative n drops the last |n| components; with output_dim above input_dim there are input_dim columns and inverse raises NodeException on the output of execute. Proved for positive n, and for nodes with output_dim columns.
* C239, output_dim of SFA2. with output_dim above the dimension of the expansion, output_dim keeps its value, but the outputs are those of a node without output_dim. Proved: the value of output_dim after training.
* C242, Extrema of an inhomogeneous form. for a routine eig which returns linearly independent unit eigenvectors that are not orthogonal (numx_linalg.eig does not promise more for multiple eigenvalues). Proved for orthonormal eigenvectors. Exact arithmetic over every ordered field; eig returns orthonormal eigenvectors of symmetric matrices, argsort sorts, solve returns a solution, qr an orthonormal basis whose first vector is a multiple of the point, square roots are exact.
* C243, Norm of the extrema. if the maximum on the sphere is not reached by the secular equation (f orthogonal to the largest eigenvectors), the bisection ends with a vector of much smaller norm and value; and if the stationary point of a definite form is inside the sphere, this point is returned. Proved: the norm if the bisection ended by the tolerance, bounds otherwise. Exact arithmetic over every ordered field; eig returns orthonormal eigenvectors of symmetric matrices, argsort sorts, solve returns a solution, qr an orthonormal basis whose first vector is a multiple of the point, square roots are exact.
* C244, get_extrema returns. UnboundLocalError if norm^2 is not above the tolerance, or f is small in comparison to H; LinAlgError for a singular H (for instance a linear form). Proved otherwise: the bisection ends (archimedean fields). Exact arithmetic over every ordered field; eig returns orthonormal eigenvectors of symmetric matrices, argsort sorts, solve returns a solution, qr an orthonormal basis whose first vector is a multiple of the point, square roots are exact.
* C253, The first of len(x) increments is disregarded. in a later call with time_dep=False and len(x) increments the first row of the derivatives is uninitialised memory and the first increment is counted as time; in a first call with two rows both increments are counted in dtlen; time_derivative changes the state used in training. Proved for a first call with at least three rows (part of C248).
* C254, VartimeSFANode generalises SFANode. the trapezoid rule gives the first and last sample half the weight, and averages over n-1 instead of dividing by n-1 degrees of freedom; delta values differ for evenly sampled data.
* C256, Training type of an OnlineLayer. once the type is set (by the user or by default at the first training or execution), the other one is always rejected, although no node has a type. Proved: what set_training_type does, that no history of calls changes a type, the default.
* C259, Executing an untrained OnlineLayer. if the output dimension of a node is not known: the nodes are trained twice with the data. Proved if it is known.
* C260, Random number generators in an OnlineLayer. the first training or execution replaces the generators of all OnlineNodes by a new unseeded one. Proved: the generator given is shared.
* C264, Consecutive groups are connected. for one group: train accepts it, adds the sample sums without counting the samples, and stop_training divides by zero. Proved for two and more groups.
* C268, The fast window computes the same as the slow one. for lengths above 2h and below 4h: the borders overlap and differences are wrong. Proved for lengths from 4h on.
* C269, The mean of the window graphs. num_samples grows by w more than the sum of the node weights, so that the mean is too small by the factor (n-h/2-1/2)/(n-h/2+1/2), for every width and length.
* C271, A graph as an array or as a dictionary. if the node weights are not the sums of the edge weights at each node: the array form gives another matrix. Proved for symmetric arrays with node weights equal to the row sums, and for dictionaries.
* C272, DualSerial uses two graphs. the dual graph has weight zero; the result is that of serial in all cases.
* C275, verbose only prints. with verbose stop_training reads self.dcov_mtx, which does not exist, and raises AttributeError.
* C276, smart_unlabeled2 is a graph with nonnegative weights. the weight of an unlabeled sample is Q/(5 N2) - 1/40, negative for N2 > 8 Q; the covariance matrix can have a negative diagonal. Proved: the explicit graph.
* C277, The mean after smart_unlabeled3. sum_x_labeled is a view of sum_x, which is scaled in place; the labeled samples then count with adj(2-adj) instead of 1 in the mean. Proved: the formula.
* C279, block_size holds for all modes of the call. serial_regression assigns its own size to block_size, all later modes of the list use that one. Proved: other modes do not.
* C280, Block sizes that do not fit. for a list of sizes: the message of the ValueError is formatted with %d and a list, which raises TypeError. Proved for an integer.
* C281, Arguments of a default fork. if no argument of __init__ has a default value, a missing attribute leads to the TypeError of the constructor. Proved for every class with a default value.
* C282, A fork has the arguments of the node. SFANode does not keep rank_deficit_method as an attribute, PCANode with a fraction as output_dim has output_dim None, so that forks are constructed with the defaults. Proved for the other arguments.
* C285, Parallel training of NIPALS. the data of NIPALSNode are in the list data, not in _cov_mtx: all data of the forks are lost, stop_training then raises ValueError (no own data) or uses the own data only.
* C286, Parallel training of VartimeSFA. for the default time_dep=True: the step between the last sample of one fork and the first of the next is lost. Proved: the result is that of the sequence of calls with time_dep=False for the first call of each fork. Positive increments, calls valid with and without time_dep.
* C292, A fork without data. once the node has data, joining a fork without data raises TypeError (array += None). Proved: harmless before the node has data, and in the first phase of FDANode; the sums of the node are kept.
* C293, Joining does not change the fork. the first join takes over the covariance object of the fork, later joins change it; one fork joined three times counts four times. Proved: different forks give the sum.
* C295, Containers with nodes that need a fork for execution. for ParallelLayer: it forks only nodes in training. Proved for ParallelFlowNode.
* C303, Initial eigenvectors. for init_eigen_vectors in the constructor: the setter is not called by it, the eigenvalues stay None and every training raises TypeError. Proved for the later assignment.
* C304, Reduced dimensionality. the variances after the sample are compared with the total variance before it (var_tot is assigned afterwards); with var_rel=1 the only dimension is dropped. Proved: the exact rule.
* C305, CCIPCA in batch mode. a chunk of two or more samples raises ValueError in batch mode for every node. The same chunk is accepted in incremental mode.
* C306, A projection matrix does not change. the matrix is the live array. For CCIPCANode it follows the node; for the whitening node it is overwritten with the unscaled unit vectors of the next update.
* C307, Whitening scales the eigenvectors. before the first sample after setting the initial vectors: they are not scaled then. Proved from the first sample on.
* C308, One update of MCANode. with the default step size and a sample of squared norm 14 along the vector the new vector is zero, its normalization gives nan. Proved: the formula whenever the call succeeds. Exact arithmetic with an exact square root; shapes and dtypes of samples are not modelled, divisions by a zero norm end the model (XNan).
* C310, MCANode finds the minor component. for the default step size 0.1: with a sample of variance 100 in a direction the part in this direction grows. Proved: the exact power iteration, and the decrease if the step size is small against the larger eigenvalue.
* C312, IncSFA without removal of the mean. _check_params uses self.avgnode, which does not exist then: AttributeError. Proved: no call of train or execute succeeds.
* C313, IncSFA with initial vectors. with init_pca_vectors every first training raises TypeError (as C303), with init_mca_vectors every later one. The same data are accepted without the options.
* C314, The running mean of IncSFA. the data of the first call are counted twice. Proved: the mean is the average with this weighting.
* C315, The first call of IncSFA. every row of the first call is treated as the start of an episode, so that no update of the slow features takes place; given in two calls the second row is used. Proved: the state after the first call.
* C317, Slow features are whitening times minor components. after the first sample, where they are the product of the raw start vectors, and after each start of an episode. Proved after every other sample.
* C321, The desired variance is explained. d is divided by tlen-1 and total_variance by tlen, so that too little is kept: 9/13 instead of 9/10 for the rows (3,0), (-3,0), (0,2), (0,-2); explained_variance can be above one. Proved: explained_variance reaches the fraction with the last component and not before, total_variance, and the bound on the sum of all d. Over an arbitrary ordered field with square roots (real arithmetic, no rounding); data of one input dimension. nan is modelled as a component that is absent.
* C322, The first component has the largest variance. the iteration starts with the first variable; for uncorrelated variables it ends there at once, whatever the other variances are. Proved: not less than the variance of the first variable. Over an arbitrary ordered field with square roots (real arithmetic, no rounding); data of one input dimension. nan is modelled as a component that is absent.
* C324, NIPALS components are numbers. two uncorrelated variables of equal variance give a second component nan, a constant first variable makes all components nan. Proved: a component is nan exactly if the earlier ones leave nothing of the first variable, and the later ones then, too. Over an arbitrary ordered field with square roots (real arithmetic, no rounding); data of one input dimension. nan is modelled as a component that is absent.
* C325, NIPALS training without convergence. self.data has been replaced by the array of the centred data, every later train raises AttributeError and stop_training IndexError. Proved: this for all sequences of later calls; the result does not depend on max_it. Over an arbitrary ordered field with square roots (real arithmetic, no rounding); data of one input dimension. nan is modelled as a component that is absent.
* C331, A node class gets the attributes of its extension node. an attribute is skipped if any superclass of the node class has the same value registered, although a class in between has another one: an extension node which sets a method back to the default of the extension keeps the function of its superclass. Proved if no superclass has the attribute registered. The MRO and the dictionaries of classes are parameters (see the header of ExtRegModel.v).
* C332, Order of definitions of an extension. after extension_method or extension_setup the class definition is refused as a second registration. Proved: the class first, then the others. The MRO and the dictionaries of classes are parameters (see the header of ExtRegModel.v).
* C333, A refused class definition leaves no trace. the name is entered before the check for two node classes, the corrected definition raises as already registered. Proved: nothing else is changed. The MRO and the dictionaries of classes are parameters (see the header of ExtRegModel.v).
* C334, Registration while the extension is active. if the class has an own method of this name, deactivation deletes it. Proved: nothing changes if the attribute was registered before, or if the class has no such attribute itself. The MRO and the dictionaries of classes are parameters (see the header of ExtRegModel.v).
* C336, Relative targets across BiFlowNodes. target -1 from the node behind a BiFlowNode enters it at its first node, and +2 from inside of it ends in IndexError. Proved inside one flow. The reading of message keys is a parameter, data checks of the BiFlowNode pass (see the header of BiFlowNodeModel.v).
* C337, Training inside a BiFlowNode. a result of stop_training of the last inner node without target always raises BiFlowException, since the next index is not in the flow. Proved for train, and for stop_training of the other nodes. The reading of message keys is a parameter, data checks of the BiFlowNode pass (see the header of BiFlowNodeModel.v).
* C338, Looking for a node changes nothing. the lookup is stored in _last_id_request and the next execution of the BiFlowNode starts at the node which was looked up. Proved: what is found, and that nothing else is changed. The reading of message keys is a parameter, data checks of the BiFlowNode pass (see the header of BiFlowNodeModel.v).
* C340, A CloneBiLayer of a BiFlowNode. with a single instance and an inner node as target the first part starts at the target and the second at the first node. Proved without such a target. The reading of message keys is a parameter, data checks of the BiFlowNode pass (see the header of BiFlowNodeModel.v).
* C341, No data and an empty message. the BiFlow passes None without message on, the BiFlowNode raises BiNodeException. Proved if there is always data or a message that is not empty (C335). The reading of message keys is a parameter, data checks of the BiFlowNode pass (see the header of BiFlowNodeModel.v).
* C344, Gradients of flows with normal nodes. a normal Node of the BiFlow changes x but not the gradient in the message: the gradient returned is that of a flow without this node. Proved if all are BiNodes. Numbers are those of an ordered field; derivatives are total derivatives (epsilon-delta, maximum norm); the message has no keys but method and grad (see the header of GradModel.v).
* C345, Gradients of nodes which were not executed before. execute with method 'gradient' does not set input_dim, IdentityNode and QuadraticExpansionNode raise TypeError until they are executed without gradient. Proved: afterwards they have the gradient. Numbers are those of an ordered field; derivatives are total derivatives (epsilon-delta, maximum norm); the message has no keys but method and grad (see the header of GradModel.v).
* C346, Gradients of Layers. Switchboard overrides _gradient only, a Layer calls _get_grad: NotImplementedError. Proved for Layers (nested ones included) of the other nodes. Numbers are those of an ordered field; derivatives are total derivatives (epsilon-delta, maximum norm); the message has no keys but method and grad (see the header of GradModel.v).
* C347, Gradients of SameInputLayers. SameInputLayer inherits the block-diagonal gradient of Layer: ValueError, or for one variable a gradient with zeros in place of those of the second node. Proved for Layer (C342). Numbers are those of an ordered field; derivatives are total derivatives (epsilon-delta, maximum norm); the message has no keys but method and grad (see the header of GradModel.v).
* C348, Gradient of a CloneBiLayer at the start. without grad in the message each node of a CloneBiLayer starts with its own unit matrix, the results are stacked to shape (n, k*o, d) instead of (n, k*o, k*d). Proved with grad given, or behind other nodes. Numbers are those of an ordered field; derivatives are total derivatives (epsilon-delta, maximum norm); the message has no keys but method and grad (see the header of GradModel.v).
* C349, stop_gradient. stop_training is possible in the training phase only, and there _gradient always raises TrainingException. Numbers are those of an ordered field; derivatives are total derivatives (epsilon-delta, maximum norm); the message has no keys but method and grad (see the header of GradModel.v).
* C350, Gradient for no samples. np.asarray([]) has shape (0,), a following Switchboard raises IndexError although execute works. Proved for at least one sample. Numbers are those of an ordered field; derivatives are total derivatives (epsilon-delta, maximum norm); the message has no keys but method and grad (see the header of GradModel.v).
* C351, Data of a wrong dimension and gradients. the method 'gradient' does no checks: Switchboard and IdentityNode accept data with too many variables which execute refuses. Proved: SFANode, SFA2Node and QuadraticExpansionNode raise (ValueError). Numbers are those of an ordered field; derivatives are total derivatives (epsilon-delta, maximum norm); the message has no keys but method and grad (see the header of GradModel.v).
* C353, All variables reach the nodes of a CloneBiLayer. the columns beyond a multiple of the number of nodes are dropped without an error; with less columns than nodes all nodes get None. Proved if the number of columns is a multiple. The methods of the inner node are parameters; messages are values (see the header of CloneBiModel.v).
* C354, use_copies can be switched on and off. switching back always raises: CloneBiLayerException in training, else AttributeError since is_bi_training does not exist. Proved: switching to copies. The methods of the inner node are parameters; messages are values (see the header of CloneBiModel.v).
* C356, Messages of stop_training in a CloneBiLayer. a single instance gets the whole arrays in stop_training. Proved for copies. The methods of the inner node are parameters; messages are values (see the header of CloneBiModel.v).
* C357, Copies or one instance of a CloneBiLayer. an array of the node itself in its message is joined over the copies but handed on once by a single instance. Proved for nodes whose results agree for the copies (identity of arrays included). The methods of the inner node are parameters; messages are values (see the header of CloneBiModel.v).
* C358, Inverse of a CloneBiLayer. with copies AttributeError; after stop_training output_dim is not set, so that inverse sets it to input_dim for good and refuses the right number of outputs. Proved for a single instance with output_dim set. The methods of the inner node are parameters; messages are values (see the header of CloneBiModel.v).
* C363, A BiSwitchboard sends data down. down_connections is never used; connections which are not invertible raise SwitchboardException for every array. Proved: invertible ones (C362), and messages without such arrays. See the headers of SwitchModel.v and SwitchBiModel.v.
* C364, Results of a BiClassifier. the empty string as prefix gives no result. Proved for all other prefixes. See the headers of SwitchModel.v and SwitchBiModel.v.
* C365, A created switchboard fits to the layer before. if prev_output_dim is no multiple of the number of output channels, the rest is dropped and the switchboard does not fit. Proved for multiples. See the headers of SwitchModel.v and SwitchBiModel.v.
* C366, free_params of the caller. ignore_cover=True is entered into the dict of the caller. Proved: nothing else, and a further call with it gives the same result as with the original one. See the headers of SwitchModel.v and SwitchBiModel.v.
* C367, Rhombic switchboards from the factory. the keyword is long_out_channels_xy, the constructor has long_in_channels_xy: TypeError for every call. Proved: with the right name the switchboard fits. See the headers of SwitchModel.v and SwitchBiModel.v.
* C369, What a ProjectionNode leaves is uncorrelated with the expanded sources. for L = 0 the slices -0: take all columns and execute raises ValueError for all data with expanded sources. Proved for L >= 1. Numbers are rationals; see the header of XsfaModel.v.
* C370, NormalizeNode gives mean zero and variance one. a component that is constant in the training data is divided by zero. Proved for all other components (with an exact square root). Numbers are rationals; see the header of XsfaModel.v.
* C372, Training schedule of XSFANode. before the first chunk get_remaining_train_phase is 2 whatever the number will be. Proved: the schedule with the numbers known after it. Numbers are rationals; see the header of XsfaModel.v.
* C377, node.lhood belongs to the fitted parameters. the likelihoods are those before each cycle, and a cycle that ended by convergence is not in the curve, so the last value is one or two cycles older than the parameters. Proved: exactly which cycles they are of. Numbers of an ordered field; utils.inv is a parameter which inverts symmetric positive definite matrices; see the header of FAModel.v.
* C378, FANode after singular data. the covariance is deleted before the exception; every later train, stop_training, execute raises AttributeError. Proved: what happens in both cases. Numbers of an ordered field; utils.inv is a parameter which inverts symmetric positive definite matrices; see the header of FAModel.v.
* C385, Filters can be replaced. output_dim and the output shape stay those of the first execution; with more filters ndarray.resize drops values and gives outputs of one data point to the next. Proved: filters of the same number and size can be replaced (with C380). Real numbers; scipy's convolutions are modelled by their definition (rounding of the Fourier transform not modelled).
* C386, A rejected batch does no harm. the image shape is stored before the dimension is checked. Proved: after a successful execution nothing is changed any more. Real numbers; scipy's convolutions are modelled by their definition (rounding of the Fourier transform not modelled).
* C387, input_dim and input_shape must agree. with images (rank 3) numpy broadcasts the result into the declared shape. Proved: flattened data points are rejected. Real numbers; scipy's convolutions are modelled by their definition (rounding of the Fourier transform not modelled).
* C388, Filters larger than the images in mode 'valid'. output_dim is fixed at the product of two negative numbers. Proved: nothing can be executed. Real numbers; scipy's convolutions are modelled by their definition (rounding of the Fourier transform not modelled).
* C394, Number of CD iterations. n_updates=0 raises UnboundLocalError, after the weights were initialised. Proved: what happens for every number of iterations. Numbers of an ordered field and any function with the laws of exp (C389_real etc.: the real exp); random numbers are an arbitrary stream; no rounding.
* C396, Numbers of labels are checked. only the total number of columns is checked. Proved: that one is. Numbers of an ordered field and any function with the laws of exp (C389_real etc.: the real exp); random numbers are an arbitrary stream; no rounding.
* C398, Chunks consisting of messages only. no phase whose chunks all have x None can be closed (TrainingException). Proved: with data in each chunk (C397). Nodes are arbitrary functions on a shared state (the BiFlowNode model of BiFlowNodeModel.v); forks are trained in the order of the chunks.
* C399, Executions started by stop_training. IndexError, the third entry of a pair is asked for. Proved: for executions leaving the flow by 'exit' or without result (C397). Nodes are arbitrary functions on a shared state (the BiFlowNode model of BiFlowNodeModel.v); forks are trained in the order of the chunks.
* C400, Chunks which do not reach the trained node. a chunk for which an earlier node ends the execution is passed over. Proved: a chunk which leaves the flow at its end or with an unknown target raises. Nodes are arbitrary functions on a shared state (the BiFlowNode model of BiFlowNodeModel.v); forks are trained in the order of the chunks.
* C402, Flows without output array. any chunk without array makes parallel execution raise (ValueError of concatenate). Proved: that it always does, and C401 for the other case.
* C403, Schedulers per node for ParallelBiFlow. None > int raises TypeError after the last phase, for every such training. Proved: the schedulers used and shut down are the right ones.
* C404, ParallelCheckpointBiFlow.train without a scheduler. TypeError, multiple values for 'checkpoints'; no call whatsoever gets to the serial training. Proved: ParallelBiFlow.train.
* C405, Arguments of ParallelCheckpointBiFlow.train with a scheduler. stop_messages is dropped in every call. Proved: all the others arrive.
* C406, Switching between copies and one instance during training. what was learned before the switch counts once for each copy. Proved: the exact result, and equality from the start of a phase.
* C407, Training of forked ParallelCloneBiLayers. a fork switched to copies cannot be joined (AttributeError), one switched to a single instance is counted once for each copy. Proved: without switches.
* C408, Giving up the copies. AttributeError (no method is_bi_training) after the training. Proved: all other cases.
* C409, Parallel execution by hand. _flownode is not set by setup_parallel_execution. Proved: after train or execute with a scheduler and no assignment.
* C413, A coroutine after an exception. the next call returns None without running the body; only the one after it starts anew. Proved: exactly this behaviour. Bodies are arbitrary functions (state machines) on the state of the node.
* C414, return in a coroutine. y arrives as a tuple with one entry; with a message IndexError is raised. Proved: this for every body. Bodies are arbitrary functions (state machines) on the state of the node.
* C415, Overriding coroutines. both are stored under the same name, so that the one of the base class is resumed. Proved: bodies which do not start coroutines (C410); different names in an Example. Bodies are arbitrary functions (state machines) on the state of the node.
* C417, The angle of CuBICANode maximizes the contrast. the terms of the contrast of frequency 8 are ignored; there are eight white points which CuBICA leaves alone although a rotation raises the contrast. Proved: the angle maximizes the rest of the contrast, whose exact form is given. Exact real arithmetic; arctan2, cos, sin and sqrt are the real functions.
* C419, Telescope mode of ICANode. UnboundLocalError with fewer than 2**minpow observations, 10*dim < 2**minpow <= 20*dim. Proved: all other sizes. Exact real arithmetic; arctan2, cos, sin and sqrt are the real functions.
* C420, output_dim of ICANode. with white_parm={'reduce': True} output_dim is that of the data before the reduction. Proved: whenever whitening keeps the number of dimensions asked for.
* C422, Rotations of JADENode maximize the diagonal. arctan2(0, 0) = 0 is taken for the angle where the best one is 45 degrees, so that the 45 degree mixture of two binary sources is not separated. Proved: all other cases, and that the sum never gets smaller. Exact real arithmetic; arctan2, cos, sin and sqrt are the real functions.
* C423, Cumulant matrices of JADENode. sqrt(2) is applied to the first of three terms only, so that JADE fails to separate two binary sources whatever the limit. Proved: the matrices with equal indices, and what is added to the others. Exact real arithmetic; arctan2, cos, sin and sqrt are the real functions.
* C425, Filters of the deflation approach. a component which does not converge is skipped and its column of the filters stays zero, without an exception (eight white points, max_it=2). Proved: the columns which converged are orthonormal, the others zero, the first one always converged, and with failures=0 (or when all converged) the filters are orthonormal. Exact real arithmetic; arctan2, cos, sin and sqrt are the real functions. Division by zero (norm of a zero vector) is a result of its own.
* C426, coarse_limit of FastICANode. the deflation approach (the default) ignores coarse_limit, whatever the data. Proved: the symmetric approach switches to fine_g. Exact real arithmetic; arctan2, cos, sin and sqrt are the real functions. Division by zero (norm of a zero vector) is a result of its own.
* C430, guess is not changed. with whitened=True and an array of the dtype of the node the columns of guess are orthonormalized in place by the deflation approach; what the first column becomes is proved. Exact real arithmetic; arctan2, cos, sin and sqrt are the real functions. Division by zero (norm of a zero vector) is a result of its own.
* C431, guess is the mixing matrix. guess is multiplied by the wrong matrix when the node whitens the data. Proved: right for whitened=True, and with the transposed projection matrix of the whitening instead. Exact real arithmetic; arctan2, cos, sin and sqrt are the real functions. Division by zero (norm of a zero vector) is a result of its own.
* C436, ISFANode works for every number of components. data with one component cannot be trained on (UnboundLocalError). Proved: input dimension at least two. Exact real arithmetic; arctan2, cos, sin and sqrt are the real functions. Contracts: shuffle permutes the list of axes, random_rot gives an orthogonal matrix, permutation a permutation, argsort sorts.
* C437, max_iter of ISFANode. NodeException is also raised if the optimization converges in sweep number max_iter. Proved: it ends, and returns after fewer than max_iter sweeps. Exact real arithmetic; arctan2, cos, sin and sqrt are the real functions. Contracts: shuffle permutes the list of axes, random_rot gives an orthogonal matrix, permutation a permutation, argsort sorts.
* C438, A contrast of zero. the rotation with contrast zero is not applied; with two components, one lag and exact arithmetic TDSEPNode never rotates, whatever the matrix. Proved: every other improvement is applied. Exact real arithmetic; arctan2, cos, sin and sqrt are the real functions. Contracts: shuffle permutes the list of axes, random_rot gives an orthogonal matrix, permutation a permutation, argsort sorts.
* C439, RP and RPC. the first columns of RPC are those of RP in another order. Proved: the rest. Exact real arithmetic; arctan2, cos, sin and sqrt are the real functions. Contracts: shuffle permutes the list of axes, random_rot gives an orthogonal matrix, permutation a permutation, argsort sorts.
* C441, Stored covariance matrices can be used again. the matrices given by the user are transformed in place; what they become is proved (C439_matrices). Exact real arithmetic; arctan2, cos, sin and sqrt are the real functions. Contracts: shuffle permutes the list of axes, random_rot gives an orthogonal matrix, permutation a permutation, argsort sorts.
* C442, The recipe with stored covariance matrices. AttributeError. Proved: the object the node builds itself can be given. Exact real arithmetic; arctan2, cos, sin and sqrt are the real functions. Contracts: shuffle permutes the list of axes, random_rot gives an orthogonal matrix, permutation a permutation, argsort sorts.
* C443, Weights of ISFANode. TypeError instead of NodeException for a wrong length, TypeError for a number, IndexError without lags. Proved: accepted weights are used as documented.
* C444, white_comp and output_dim of ISFANode. output_dim overrides white_comp, so there is no outer space. Proved: exactly what the dimensions are.
* C445, Arguments and attributes of TDSEPNode. white_parm is ignored by TDSEPNode, and convergence is a dictionary. ISFANode passes white_parm on.
* C447, The number of neighbours of LLENode. with k equal to the number of points training always ends with IndexError (each point has only k-1 others). Proved: TrainingException exactly for greater k, neither of the two for smaller k. argsort, solve, svd and symeig are parameters with the contracts stated in the theorems (is_argsort, is_solve, is_symeig); exact real arithmetic.
* C448, The neighbours of LLENode. the first entry of argsort is dropped as the point itself; if the point occurs twice it can be the other copy, and the point is its own neighbour. Proved for points which occur once. argsort, solve, svd and symeig are parameters with the contracts stated in the theorems (is_argsort, is_solve, is_symeig); exact real arithmetic.
* C450, LLENode does not depend on the scale of the data. for execute: the regularization is r instead of r times the trace, so the output depends on the scale. Proved for the weights of training with given r. argsort, solve, svd and symeig are parameters with the contracts stated in the theorems (is_argsort, is_solve, is_symeig); exact real arithmetic.
* C452, execute on training points. for every r > 0 the regularization moves the output for a training point. Proved: the output is the best combination. argsort, solve, svd and symeig are parameters with the contracts stated in the theorems (is_argsort, is_solve, is_symeig); exact real arithmetic.
* C453, The regularization of LLENode. with r=None and no unused variance (output_dim >= k, or output_dim not given) execute raises LinAlgError for every training point. Proved: never with r > 0. argsort, solve, svd and symeig are parameters with the contracts stated in the theorems (is_argsort, is_solve, is_symeig); exact real arithmetic.
* C455, HLLENode normalizes the embedding. the projection is multiplied by (Y.T Y)^(1/2) instead of (Y.T Y)^(-1/2), so the coordinates have length N. argsort, solve, svd and symeig are parameters with the contracts stated in the theorems (is_argsort, is_solve, is_symeig); exact real arithmetic.
* C456, HLLENode makes the weights sum to 1. the columns are orthogonal to the constants, their sum is zero and is replaced by 1, so the division never has an effect. argsort, solve, svd and symeig are parameters with the contracts stated in the theorems (is_argsort, is_solve, is_symeig); exact real arithmetic.
* C457, The Gram-Schmidt step of HLLENode. with fewer neighbours than that _mgs always divides by zero. Proved: orthonormal columns if it does not. argsort, solve, svd and symeig are parameters with the contracts stated in the theorems (is_argsort, is_solve, is_symeig); exact real arithmetic.
* C458, execute of LLENode treats the rows independently. with r=None the correction of the first row is kept for all rows (and added twice in the first). Proved for given r. argsort, solve, svd and symeig are parameters with the contracts stated in the theorems (is_argsort, is_solve, is_symeig); exact real arithmetic.
* C459, progressinfo does not change a loop. an empty sequence raises UnboundLocalError (count). Proved for all other sequences. Exact rationals instead of floats.
* C460, The progress bar keeps its length. in a terminal of width 4 the bar for 0 and the bar for 1 differ in length. Proved for all terminals with room for one symbol. Exact rationals instead of floats.
* C462, The remaining time. with speed 'last' AttributeError if the first fraction drawn is not zero, ZeroDivisionError if a fraction is drawn twice. Proved for the mean speed, and for the last speed after a smaller fraction. Exact rationals instead of floats.
* C463, Labels of the support vector machines. an unknown label is turned into None without an error. The rest is proved.
* C464, Readable sizes. 1024 KiB instead of 1 MiB (the number can be the base), IndexError for sizes above base**7, and dig_node of a node without arrays raises ValueError. Proved: the number is above 1 and at most the base. Exact rationals instead of floats.
* C465, Generated BiNode classes preserve the signature. for an __init__ without default values TypeError; with *args extra positional arguments always collide with the keywords. Proved for signatures with defaults.
* C470, The number of labels of compact_classes. Jdes = 2**J is accepted, and one of the labels is -1 for all samples. Proved: fewer are different labels which divide the classes, more raise IndexError.
* C471, Block sizes of compact_classes. for a list of sizes whose size does not divide the number of samples TypeError is raised when the message is made. The rest is proved.
* C474, The output dimension of iGSFANode. with output_dim above input_dim plus the number of slow features training succeeds, execute gives fewer columns, and inverse refuses them. Proved for all other output dimensions. Exact arithmetic over any ordered field; eigensolver (PCA) and symeig solver (GSFA) by contract; regression, QR and pseudoinverse are parameters.
* C475, The inverse of iGSFANode uses the slow features. outputs which differ in the slow features only have the same inverse. Proved: inverse is the inverse of the PCANode on the other columns. Exact arithmetic over any ordered field; eigensolver (PCA) and symeig solver (GSFA) by contract; regression, QR and pseudoinverse are parameters.
* C476, The inverse of iGSFANode is centered. if only slow features are kept, inverse gives zero for all outputs, whatever the mean. Proved if there is at least one component. Exact arithmetic over any ordered field; eigensolver (PCA) and symeig solver (GSFA) by contract; regression, QR and pseudoinverse are parameters.
* C479, The verbose mode of iGSFANode. with verbose=True training never succeeds, as GSFANode reads the missing attribute dcov_mtx. Proved: it fails for all data. Exact arithmetic over any ordered field; eigensolver (PCA) and symeig solver (GSFA) by contract; regression, QR and pseudoinverse are parameters.
* C483, The number of columns with QR_decomposition. with more slow features than inputs (an expansion) QR_decomposition gives input_dim columns for them, execute gives fewer than output_dim columns, and inverse refuses them. Proved otherwise. Exact arithmetic over any ordered field; eigensolver (PCA) and symeig solver (GSFA) by contract; regression, QR and pseudoinverse are parameters.
* C484, sensitivity_based scaling keeps all slow features. a slow feature without linear relation to the input (even functions of it) has the factor 0, its column is always 0, and inverse divides 0 by 0. Proved: exactly then. Exact arithmetic over any ordered field; eigensolver (PCA) and symeig solver (GSFA) by contract; regression, QR and pseudoinverse are parameters.
* C488, _version_too_old. '0.4' is smaller than (0, 4, 3), but False is returned. Proved: the result is right for versions with at least as many parts, and True is never wrong.
* C490, The numerical backend. with an empty MDPNUMX numpy is used although scipy can be imported. Proved for unset and non-empty values.
* C491, set_configuration. a joblib without __version__ raises AttributeError even if it is disabled (also svmutil and libsvm if not disabled). Proved: exactly then; otherwise the registrations are as stated.
* C494, TemporaryDirectory touches its own directory only. links to directories are followed, so the contents of a directory elsewhere are removed, and the link and the directory remain; errors of remove and rmdir are dropped, the directory remains and cleanup does nothing any more. Proved without links and protected directories (C492). Model of a file system with directories, files, symbolic links and permissions.
* C496, random_rot for every draw. a first entry 0 gives a matrix with a zero row, a vector (1, 0, ..., 0) divides by 0. Proved for all other draws (C495). Exact arithmetic over any real closed field.
* C498, fixup_namespace terminates and removes the private modules. a name in names which is not accessible raises AttributeError, the names behind it are not treated and the modules not removed. Proved otherwise. An instance has a __module__ of its own in the model; the lookup in sys.modules and debug output are not modelled.
* C500, Eta values of a sine. four samples of one oscillation give 3/pi with every solver. Proved what is computed instead (C499).
* C503, A flow can be traced again. after an exception (also that for a msg given to a Flow) the nodes stay decorated; in the next trace they are decorated a second time, the wrapper then is its own original method and calls itself without end. The same holds for a node which occurs twice in a flow. Proved for executions without exception (C502). HTML output, exceptions of the callback and pickling of decorated nodes are not modelled.
* C504, Tracing the training of a CloneLayer. the first clone is replaced by a copy for tracing, and afterwards all clones by that copy, which was trained with the data of the first clone only; the data of the others is lost. HTML output, exceptions of the callback and pickling of decorated nodes are not modelled.
* C505, SenderBiNode addresses its recipient. a recipient_id with the separator -> gives a key which raises ValueError in the next node, or is taken for a key of no node. Proved for all other ids; the reading of keys is that of BiModel.v.
* C507, Exceptions while tracing with debug. the error slide is opened by a with statement, but NewlineWriteFile has no __enter__ in its class (special methods are not found by __getattr__), so AttributeError is raised instead of TraceDebugException and the file stays open. Proved that the exception is handed on without debug. The content of the slides, file errors, and nodes which catch exceptions of the callback are not modelled.
* C508, Snapshots are read in the order of the training. the names are sorted as strings, so snapshot_10 is read before snapshot_2 and the trace of a training with more than ten phases is in the wrong order. Proved for at most ten snapshots. Directories below the snapshot path and other files are not modelled.
* C509, Every slide of a training has its section. for a phase without slides of stop_training start_index is set to end_index, so one id too many is added. Proved if every phase has a slide of stop_training. The refuting index table is the one of a debugged training which failed; with the tracer as it is that table is not reached in debug mode (C507).
* C511, The controls of a slideshow with sections end. only_one_section compares the ids before they are made strings, the script afterwards; for the ids 1 and '1' the loop of nextSection does not end. Proved if no number and string with the same text are mixed. The HTML elements, the loading of the slides and the delay are not modelled.
* C513, The controls of the slideshow of a training end. with the additional section id of C509 a training with one phase and no slides of stop_training seems to have two sections, and nextSection does not end. Proved if every phase has a slide of stop_training. The reservation about debug mode of C509 holds here too. The HTML elements, the loading of the slides and the delay are not modelled.
* C517, Elements of the panel have different ids. a section which occurs again after another one gets a second link with the same id; getElementById finds the first only. Proved if the slides of every section follow each other and no number and string with the same text are mixed.
