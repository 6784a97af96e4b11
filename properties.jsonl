{"id": "C01", "title": "Training lifecycle of a node", "statement": "For a node with k training phases, any history of train / stop_training / execute / inverse calls runs the phases strictly in order 0..k-1, each phase is closed exactly once, train data only ever reaches the phase that is currently open, and after the last phase is closed every further train or stop_training call raises TrainingFinishedException without changing the node.", "quantifier": "every k>=0, every call history with every argument shape", "why_tests_cant": "Histories are unbounded and errors in the middle of a history change what later calls see; tests only run the straight path.", "anchors": ["mdp/signal_node.py: Node.train, Node.stop_training, Node._pre_execution_checks, Node._if_training_stop_training, Node.get_remaining_train_phase"]}
{"id": "C02", "title": "Dimensions and dtype are write-once", "statement": "Once input_dim, output_dim or dtype of a node has a value, no later call of any public method (train, execute, inverse, setting the attribute) changes that value; a conflicting assignment raises and leaves the node as it was.", "quantifier": "every history of calls on a node", "why_tests_cant": "Requires every interleaving of setters and data calls, including failing ones.", "anchors": ["mdp/signal_node.py: set_input_dim, set_output_dim, set_dtype, _check_input, _check_output, _pre_execution_checks, PreserveDimNode"]}
{"id": "C03", "title": "PreserveDimNode keeps both dimensions equal", "statement": "In every reachable state of a PreserveDimNode input_dim and output_dim are both unset or equal.", "quantifier": "every history of constructor arguments, setters and data calls", "why_tests_cant": "unbounded histories", "anchors": ["mdp/signal_node.py: PreserveDimNode._set_input_dim, _set_output_dim"]}
{"id": "C04", "title": "Executing an untrained node trains it on that data", "statement": "Calling execute(x) on a node none of whose training phases was started has the same result and leaves the same node as: for every phase train(x); stop_training(), then execute(x). Executing a node that is in the middle of a multi-phase training with phases left raises TrainingException.", "quantifier": "every node behaviour, number of phases, and x", "why_tests_cant": "quantifies over all nodes", "anchors": ["mdp/signal_node.py: _pre_execution_checks, _if_training_stop_training, execute"]}
{"id": "C05", "title": "Cumulator nodes see exactly the training data", "statement": "After training is stopped, a Cumulator holds the concatenation of all training chunks in the order given, and tlen is its number of rows; the result depends only on the concatenation, not on how it was chunked.", "quantifier": "every sequence of chunks", "why_tests_cant": "all chunkings", "anchors": ["mdp/signal_node.py: VariadicCumulator, Cumulator"]}
{"id": "C06", "title": "A flow is always dimensionally consistent", "statement": "After any sequence of container operations (construct, set/delete item or slice, append, extend, insert, pop, +, slicing) on a flow, every pair of adjacent nodes with both dimensions set has out-dim of the first = in-dim of the second.", "quantifier": "every initial flow and operation sequence including failing operations", "why_tests_cant": "unbounded op sequences with failures", "anchors": ["mdp/linear_flows.py: Flow._check_nodes_consistency, __setitem__, __delitem__, __add__, __iadd__, append, extend, insert, pop"]}
{"id": "C07", "title": "Failing flow edits are atomic", "statement": "A container operation on a flow that raises leaves the flow (its list of nodes) exactly as before.", "quantifier": "every flow and every failing operation", "why_tests_cant": "requires all error paths", "anchors": ["mdp/linear_flows.py: Flow.__iadd__, __setitem__, __delitem__, append, extend, insert"]}
{"id": "C08", "title": "Flow training feeds each node through its trained predecessors", "statement": "Flow.train visits the nodes in order; for each trainable node every phase receives every chunk of its data iterable, in order, after being passed through all preceding nodes, each of which is by then completely trained; when train returns normally every node has received all its data, and the last node and every node preceding a node with something to train are completely trained.", "quantifier": "every flow (any mix of trainable / non-trainable / multi-phase nodes), every data", "why_tests_cant": "quantifies over nodes and data", "anchors": ["mdp/linear_flows.py: Flow.train, Flow._train_node, _close_last_node"]}
{"id": "C09", "title": "Flow execution is composition, chunk by chunk", "statement": "Flow.execute on an iterable is the row-wise concatenation of applying node 0, 1, ..., n in turn to each chunk; for nodes acting row by row the result is the same as executing the concatenated input; an empty iterable is rejected.", "quantifier": "every flow, every chunking", "why_tests_cant": "all chunkings", "anchors": ["mdp/linear_flows.py: Flow.execute, _execute_seq"]}
{"id": "C10", "title": "Flow inverse undoes execute", "statement": "If every node of a flow is inverted by its own inverse, Flow.inverse(Flow.execute(x)) = x, with the nodes inverted in reverse order.", "quantifier": "every flow length and input", "why_tests_cant": "unbounded length", "anchors": ["mdp/linear_flows.py: Flow.inverse, _inverse_seq"]}
{"id": "C11", "title": "Checkpoints run once, in order, on a trained node", "statement": "CheckpointFlow.train calls each supplied checkpoint function exactly once, in node order, after its node has received all its training data (all phases but possibly the last one closed) and before any later node is touched.", "quantifier": "every flow and assignment of checkpoints", "why_tests_cant": "unbounded", "anchors": ["mdp/linear_flows.py: CheckpointFlow.train, _train_check_checkpoints"]}
{"id": "C12", "title": "Activating then deactivating an extension restores the classes", "statement": "activate_extension(e); deactivate_extension(e) leaves the dictionaries of all classes and the active extensions unchanged; while e is active each registered attribute is in the dictionary of its class, no other attribute changed, and (no registered superclass) the prefixed name gives the original. Conditions: no other active extension has changed these attributes of these classes; superclasses are registered before subclasses; a class with a registered superclass does not itself define the attribute; no static or class methods; no class repeats the value of a superclass.", "quantifier": "every class hierarchy, registry, and set of already active extensions", "why_tests_cant": "every hierarchy and registry", "anchors": ["mdp/extension.py: activate_extension, deactivate_extension"]}
{"id": "C13", "title": "Contexts and decorated functions restore the extensions", "statement": "For independent extensions, any nesting of extension() contexts and with_extension functions leaves the active extensions and the class dictionaries as they were, also when the body raises, and passes the exception of the body on.", "quantifier": "every nesting of contexts, from every state reached by activations", "why_tests_cant": "unbounded nesting", "anchors": ["mdp/extension.py: extension, with_extension, activate_extensions, deactivate_extensions"]}
{"id": "C14", "title": "Failed activation leaves no trace", "statement": "If activate_extension(e) raises because of a name clash, the classes and the set of active extensions are as before the call.", "quantifier": "every registry and active set", "why_tests_cant": "error paths in all registries", "anchors": ["mdp/extension.py: activate_extension"]}
{"id": "C15", "title": "Topological order", "statement": "Graph.topological_sort returns a list of all nodes, each exactly once, with every edge going forward, whenever the graph is acyclic, and raises GraphTopologicalException exactly when it has a cycle; the exception then carries, in order, the nodes not reachable from a cycle.", "quantifier": "every graph, including multi-edges and self loops", "why_tests_cant": "all graphs", "anchors": ["mdp/graph/graph.py: Graph.topological_sort"]}
{"id": "C16", "title": "Depth-first and breadth-first traversals visit exactly the reachable nodes", "statement": "dfs / bfs / undirected variants return every node reachable from the root (respectively weakly reachable) exactly once and nothing else.", "quantifier": "every graph and root", "why_tests_cant": "all graphs incl. cycles", "anchors": ["mdp/graph/graph.py: _dfs, _bfs, dfs, bfs, undirected_dfs, undirected_bfs"]}
{"id": "C17", "title": "Connected components", "statement": "connected_components partitions the nodes; two nodes are in the same component exactly if they are joined by an undirected path; is_weakly_connected is true exactly if there is one component.", "quantifier": "every graph", "why_tests_cant": "all graphs", "anchors": ["mdp/graph/graph.py: connected_components, is_weakly_connected"]}
{"id": "C18", "title": "Graph bookkeeping invariant", "statement": "After any sequence of add_node, add_edge, add_nodes, remove_edge, remove_node, add_tree, add_full_connectivity the in- and out-edge lists of the nodes list exactly the edges of the graph, each as often as it occurs, and no edge refers to a removed node.", "quantifier": "every operation sequence", "why_tests_cant": "unbounded op sequences", "anchors": ["mdp/graph/graph.py: Graph.add_edge, remove_edge, remove_node, add_tree, add_full_connectivity"]}
{"id": "C19", "title": "Switchboard routing and inversion", "statement": "For connections that are valid (non-negative, < input_dim), execute puts input column connections[j] into output column j; is_invertible is true exactly if the connections are a permutation, and then inverse(execute(x)) = x and execute(inverse(y)) = y.", "quantifier": "every input_dim, connection list, data", "why_tests_cant": "all connection lists", "anchors": ["mdp/hinet/switchboard.py: Switchboard.__init__, _execute, is_invertible, _inverse"]}
{"id": "C20", "title": "Mean-inverse switchboard", "statement": "MeanInverseSwitchboard.inverse gives, in every input column, the mean of the output columns connected to it, and 0 where none is connected.", "quantifier": "every connection list", "why_tests_cant": "all connection lists", "anchors": ["mdp/hinet/switchboard.py: MeanInverseSwitchboard._inverse"]}
{"id": "C21", "title": "Rectangular fields: range and coverage", "statement": "For every accepted parameter set of Rectangular2dSwitchboard all connections are in range, each output channel is exactly a rectangular field of the input image, and (with ignore_cover off and the spacing at most the field size) every input channel is covered by some field; the parameters accepted are exactly those whose fields fit and (ignore_cover off) reach the border.", "quantifier": "all image sizes, positive field sizes, spacings and channel dimensions", "why_tests_cant": "all parameter values", "anchors": ["mdp/hinet/switchboard.py: Rectangular2dSwitchboard.__init__"]}
{"id": "C22", "title": "Double rectangular fields cover the interior twice", "statement": "For every accepted parameter set of DoubleRect2dSwitchboard (ignore_cover off) all connections are in range and every interior point of the image is covered by exactly two fields, border points exactly once.", "quantifier": "all sizes", "why_tests_cant": "all parameter values", "anchors": ["mdp/hinet/switchboard.py: DoubleRect2dSwitchboard.__init__"]}
{"id": "C23", "title": "Rhombic fields never leave the image", "statement": "For every accepted parameter set of DoubleRhomb2dSwitchboard the construction completes, all connections are in range and each output channel gets exactly the lattice points within city-block distance d-1 of its centre.", "quantifier": "all image sizes, positive diagonals and channel dimensions", "why_tests_cant": "all parameter values", "anchors": ["mdp/hinet/switchboard.py: DoubleRhomb2dSwitchboard.__init__"]}
{"id": "C24", "title": "Coordinate translation is a bijection", "statement": "CoordinateTranslator image_to_index / index_to_image (and the other pairs) are mutually inverse on in-range coordinates and raise outside.", "quantifier": "all sizes and coordinates", "why_tests_cant": "all sizes", "anchors": ["mdp/hinet/switchboard.py: CoordinateTranslator"]}
{"id": "C25", "title": "Channel bookkeeping of switchboards", "statement": "get_out_channel_input / get_out_channels_input_channels return exactly the input connections / input channels of the requested output channels, and the node of get_out_channel_node computes that channel of the whole board's output.", "quantifier": "all switchboards", "why_tests_cant": "all", "anchors": ["mdp/hinet/switchboard.py: ChannelSwitchboard"]}
{"id": "C26", "title": "A layer is the blockwise product of its nodes", "statement": "Layer.execute gives each node exactly its own block of input columns and returns the concatenated outputs; Layer.inverse undoes Layer.execute if every node is invertible; the layer's dims are the sums of the node dims.", "quantifier": "every list of nodes and data", "why_tests_cant": "all lists", "anchors": ["mdp/hinet/layer.py: Layer._execute, _inverse, _train, _get_output_dim_from_nodes"]}
{"id": "C27", "title": "CloneLayer equals a layer of n references", "statement": "CloneLayer(node,n).execute equals Layer([node]*n).execute for a node acting row by row.", "quantifier": "all n, data", "why_tests_cant": "all", "anchors": ["mdp/hinet/layer.py: CloneLayer"]}
{"id": "C28", "title": "FlowNode training equals flow training", "statement": "A FlowNode has as many phases as its nodes together still need, and is trainable exactly if that is not zero; training it phase by phase gives every node, for each of its open phases, exactly the elements of the corresponding FlowNode phase in order, as they come out of the final preceding nodes (the calls Flow.train makes), and leaves the FlowNode and all its nodes completely trained.", "quantifier": "every flow of reachable nodes, including pretrained ones, and all data", "why_tests_cant": "all flows", "anchors": ["mdp/hinet/flownode.py: FlowNode._get_train_seq"]}
{"id": "C29", "title": "Sequential scheduler computes the map", "statement": "With the base Scheduler, get_results returns the results of all tasks added since the last get_results, in submission order, each computed with the callable given at (or last before) its submission.", "quantifier": "every sequence of scheduler calls", "why_tests_cant": "all call sequences", "anchors": ["mdp/parallel/scheduling.py: Scheduler, TaskCallable, OrderedResultContainer"]}
{"id": "C30", "title": "Ordered results under any completion order", "statement": "OrderedResultContainer returns results in task order for every order in which tasks complete.", "quantifier": "every completion permutation", "why_tests_cant": "all permutations", "anchors": ["mdp/parallel/scheduling.py: OrderedResultContainer"]}
{"id": "C31", "title": "Process scheduler never loses or duplicates a task", "statement": "In every interleaving of the process scheduler's threads each submitted task is executed exactly once by exactly one worker process at a time, and its result is stored exactly once.", "quantifier": "every schedule, number of processes, tasks", "why_tests_cant": "all interleavings", "anchors": ["mdp/parallel/process_schedule.py: ProcessScheduler._process_task, _task_thread"]}
{"id": "C32", "title": "A worker uses the callable its task was submitted with", "statement": "In every interleaving of ProcessScheduler with callable caching, a task runs with the callable that was current when it was submitted.", "quantifier": "every schedule and callable sequence", "why_tests_cant": "all interleavings", "anchors": ["mdp/parallel/process_schedule.py: ProcessScheduler._task_thread, _process_run"]}
{"id": "C33", "title": "ThreadScheduler respects n_threads", "statement": "At no time more than n_threads task threads of a ThreadScheduler are running.", "quantifier": "every schedule", "why_tests_cant": "all interleavings", "anchors": ["mdp/parallel/thread_schedule.py: ThreadScheduler._process_task"]}
{"id": "C34", "title": "Scheduler lock discipline", "statement": "Every scheduler call that returns or raises leaves the scheduler's lock free, so that a later call cannot block forever.", "quantifier": "every call, including those whose task raises", "why_tests_cant": "error paths", "anchors": ["mdp/parallel/scheduling.py: Scheduler.add_task, get_results, _store_result"]}
{"id": "C35", "title": "Parallel training equals serial training", "statement": "For nodes whose join adds the statistics of the forks, ParallelFlow.train yields, for every order in which the forked nodes come back, the same trained node as serial training on the same chunks.", "quantifier": "every chunking, number of forks and completion order", "why_tests_cant": "all orders", "anchors": ["mdp/parallel/parallelflows.py: ParallelFlow, TrainResultContainer", "mdp/parallel/parallelnodes.py: _join_covariance, ParallelPCANode"]}
{"id": "C36", "title": "Parallel execution equals serial execution", "statement": "ParallelFlow.execute returns the same array as Flow.execute for every completion order of the tasks.", "quantifier": "every completion order", "why_tests_cant": "all orders", "anchors": ["mdp/parallel/parallelflows.py: ParallelFlow.execute, ExecuteResultContainer"]}
{"id": "C37", "title": "Covariance accumulation is chunk invariant and correct", "statement": "CovarianceMatrix.fix returns the textbook (biased/unbiased, centered/uncentered) covariance and mean of the concatenated data, irrespective of the chunking.", "quantifier": "all data, chunkings", "why_tests_cant": "all reals/rationals", "anchors": ["mdp/utils/covariance.py: CovarianceMatrix"]}
{"id": "C38", "title": "Time-lagged covariance", "statement": "DelayCovarianceMatrix(dt).fix is the lagged covariance of all pairs (t, t+dt) inside chunks; for dt=0 it equals CovarianceMatrix.", "quantifier": "all dt, chunkings", "why_tests_cant": "all", "anchors": ["mdp/utils/covariance.py: DelayCovarianceMatrix"]}
{"id": "C39", "title": "Cross covariance", "statement": "CrossCovarianceMatrix.fix is the covariance between the two signals of the concatenated data.", "quantifier": "all data", "why_tests_cant": "all", "anchors": ["mdp/utils/covariance.py: CrossCovarianceMatrix"]}
{"id": "C40", "title": "Plane rotation of covariance matrices", "statement": "Rotating MultipleCovarianceMatrices in a plane equals conjugation with the Givens rotation; permute is conjugation by the transposition; symmetrize yields symmetric matrices.", "quantifier": "all matrices, angles, index pairs", "why_tests_cant": "all", "anchors": ["mdp/utils/covariance.py: MultipleCovarianceMatrices", "mdp/utils/routines.py: rotate, permute"]}
{"id": "C41", "title": "cov2 is a covariance", "statement": "routines.cov2(x,y) is the covariance of x and y (in particular zero when x is constant).", "quantifier": "all data", "why_tests_cant": "all", "anchors": ["mdp/utils/routines.py: cov2"]}
{"id": "C42", "title": "comb is the binomial coefficient", "statement": "comb(N,k) = N!/(k!(N-k)!) exactly, for all 0<=k<=N.", "quantifier": "all N,k", "why_tests_cant": "unbounded integers", "anchors": ["mdp/utils/routines.py: comb"]}
{"id": "C43", "title": "orthogonal_permutations / product / stretched zip", "statement": "orthogonal_permutations enumerates each combination of the values exactly once; izip_stretched pairs element i of every iterable and repeats scalars.", "quantifier": "all inputs", "why_tests_cant": "all", "anchors": ["mdp/utils/routines.py: orthogonal_permutations, izip_stretched"]}
{"id": "C44", "title": "Time embedding and its pseudo inverse", "statement": "TimeFramesNode.execute row t holds rows t, t+gap, ...; if at least gap rows come out, pseudo_inverse(execute(x)) = x; always execute(pseudo_inverse(execute(x))) = execute(x).", "quantifier": "all x, time_frames, gap", "why_tests_cant": "all", "anchors": ["mdp/nodes/misc_nodes.py: TimeFramesNode"]}
{"id": "C45", "title": "Time delay", "statement": "TimeDelayNode.execute row t holds rows t, t-gap, t-2gap, ... with zeros before the start, for every input length.", "quantifier": "all x, frames, gap", "why_tests_cant": "all lengths", "anchors": ["mdp/nodes/misc_nodes.py: TimeDelayNode"]}
{"id": "C46", "title": "Sliding window delay equals batch delay", "statement": "Feeding rows one by one to TimeDelaySlidingWindowNode yields the rows TimeDelayNode yields on the whole sequence.", "quantifier": "all sequences", "why_tests_cant": "unbounded streams", "anchors": ["mdp/nodes/misc_nodes.py: TimeDelaySlidingWindowNode"]}
{"id": "C47", "title": "Hit parade", "statement": "HitParadeNode keeps at most n hits per channel pairwise separated by more than d, the global extremum is always kept, independent of chunking.", "quantifier": "all signals and chunkings", "why_tests_cant": "unbounded streams", "anchors": ["mdp/nodes/misc_nodes.py: OneDimensionalHitParade, HitParadeNode"]}
{"id": "C48", "title": "Cutoff", "statement": "CutoffNode output lies within the bounds, equals the input where that is inside the bounds, and is idempotent.", "quantifier": "all data and bounds", "why_tests_cant": "all", "anchors": ["mdp/nodes/misc_nodes.py: CutoffNode, AdaptiveCutoffNode"]}
{"id": "C49", "title": "Polynomial expansion is complete and non-redundant", "statement": "PolynomialExpansionNode(d).execute returns every monomial of degree 1..d in the inputs exactly once, and the number of columns is expanded_dim(d,n) = C(n+d,d)-1.", "quantifier": "all d, n, data", "why_tests_cant": "all d, n", "anchors": ["mdp/nodes/expansion_nodes.py: PolynomialExpansionNode, expanded_dim, nmonomials"]}
{"id": "C50", "title": "General expansion", "statement": "GeneralExpansionNode concatenates the outputs of its functions; output_dim is the sum of output_sizes.", "quantifier": "all function lists", "why_tests_cant": "all", "anchors": ["mdp/nodes/expansion_nodes.py: GeneralExpansionNode"]}
{"id": "C51", "title": "Caching is transparent", "statement": "With the caching extension, every execute returns (or raises) the same as without, for the node as it is then; a program whose checks do not fail on a node for the first time behaves as without the extension altogether, and values already computed for an equal node and input in the directory are not computed again.", "quantifier": "all histories of execute/activate/deactivate/set_cachedir/set_instance_cache/changes to nodes, all contents of the cache directory", "why_tests_cant": "all histories", "anchors": ["mdp/caching/caching_extension.py: CacheExecuteExtensionNode.execute, activate_caching, deactivate_caching"]}
{"id": "C52", "title": "Caching contexts nest", "statement": "Leaving a cache() context restores the default settings; leaving an inner cache() context restores the caching situation of the enclosing context.", "quantifier": "all nestings", "why_tests_cant": "all nestings", "anchors": ["mdp/caching/caching_extension.py: cache"]}
{"id": "C53", "title": "Classifier ranking", "statement": "rank returns, for every data point, exactly the labels with probability above the threshold, ordered by non-increasing probability.", "quantifier": "all probability tables", "why_tests_cant": "all", "anchors": ["mdp/classifier_node.py: ClassifierNode.rank"]}
{"id": "C54", "title": "Markov classifier probabilities", "statement": "SimpleMarkovClassifier.prob(feature)[label] is the relative frequency of label among the training samples with that feature; the values sum to 1; unseen features give {}.", "quantifier": "all training histories", "why_tests_cant": "all", "anchors": ["mdp/nodes/classifier_nodes.py: SimpleMarkovClassifier"]}
{"id": "C55", "title": "k-nearest-neighbour vote", "statement": "KNNClassifier.label returns a label with the largest number of votes among k nearest stored samples.", "quantifier": "all data", "why_tests_cant": "all", "anchors": ["mdp/nodes/classifier_nodes.py: KNNClassifier"]}
{"id": "C56", "title": "Nearest mean", "statement": "NearestMeanClassifier.label returns a label whose training mean is nearest; means do not depend on chunking or label order.", "quantifier": "all data", "why_tests_cant": "all", "anchors": ["mdp/nodes/classifier_nodes.py: NearestMeanClassifier"]}
{"id": "C57", "title": "Hopfield recall terminates in a fixed point", "statement": "DiscreteHopfieldClassifier.label terminates for every update order and returns a state that no single-unit update changes; a single stored pattern is a fixed point.", "quantifier": "all weights from training, inputs, shuffles", "why_tests_cant": "termination over all random orders", "anchors": ["mdp/nodes/classifier_nodes.py: DiscreteHopfieldClassifier"]}
{"id": "C58", "title": "Online node lifecycle", "statement": "An OnlineNode keeps accepting training after execute/inverse; only stop_training ends training, and it closes all phases; the iteration counter is the total number of rows trained.", "quantifier": "all histories", "why_tests_cant": "unbounded", "anchors": ["mdp/signal_node_online.py: OnlineNode"]}
{"id": "C59", "title": "Online flow trains its terminal node on all data", "statement": "OnlineFlow.train gives every node, including a terminal trainable (non-online) node, every data element after processing by the preceding nodes.", "quantifier": "all flows, data", "why_tests_cant": "all", "anchors": ["mdp/linear_flows_online.py: OnlineFlow._train_nodes, train"]}
{"id": "C60", "title": "Circular flow input rotation", "statement": "CircularOnlineFlow.set_input_node(k) rotates the flow so that node k becomes first and the output node stays the same node; set_output_node accepts exactly the valid indices.", "quantifier": "all flows, k", "why_tests_cant": "all", "anchors": ["mdp/linear_flows_online.py: CircularOnlineFlow.set_input_node, set_output_node"]}
{"id": "C61", "title": "Online centering is the running mean", "statement": "After training on n rows OnlineCenteringNode.avg is their arithmetic mean, regardless of chunking; with avg_n it is the exponentially weighted average.", "quantifier": "all data", "why_tests_cant": "all", "anchors": ["mdp/nodes/stats_nodes_online.py: OnlineCenteringNode"]}
{"id": "C62", "title": "BiNode message routing", "statement": "A message key 'node_id->key' reaches only the node with that id, overrides the plain key, and is removed; plain keys reach every node accepting them and are passed on; results override the message.", "quantifier": "all messages", "why_tests_cant": "all dicts", "anchors": ["bimdp/binode.py: BiNode.execute, _get_msg_id_keys, _extract_message_key, _extract_method_args, _combine_result"]}
{"id": "C63", "title": "BiFlow jumps stay inside the flow", "statement": "BiFlow execution follows the returned targets: a relative jump to an index inside the flow continues there, +1 past the end / -1 before the start leave the flow, any other out-of-range jump is an error.", "quantifier": "all targets", "why_tests_cant": "all", "anchors": ["bimdp/biflow.py: BiFlow._execute_seq, _target_to_index"]}
{"id": "C64", "title": "Message results are combined", "statement": "MessageResultContainer.get_message returns for each key the concatenation (arrays) or sum (others) of the values over all chunks, in order.", "quantifier": "all message sequences", "why_tests_cant": "all", "anchors": ["bimdp/biflow.py: MessageResultContainer"]}
{"id": "C65", "title": "Failed calls leave a node unchanged", "statement": "A train or execute call that raises leaves the node (dimensions, dtype, training phase) as it was before the call.", "quantifier": "every node, state and argument", "why_tests_cant": "needs all failing calls in all states", "anchors": ["mdp/signal_node.py: Node._check_input, Node.train, Node._if_training_stop_training, Node._pre_execution_checks"]}
{"id": "C66", "title": "Flow.train does not swallow errors", "statement": "If a node's training hook raises, Flow.train does not return normally.", "quantifier": "every flow and node", "why_tests_cant": "exception paths", "anchors": ["mdp/linear_flows.py: Flow._train_node"]}
{"id": "C67", "title": "After Flow.train every node is completely trained", "statement": "When Flow.train returns normally, no node of the flow is still in training.", "quantifier": "every flow", "why_tests_cant": "any mix of nodes", "anchors": ["mdp/linear_flows.py: Flow.train, _close_last_node"]}
{"id": "C68", "title": "Editing one flow does not affect another", "statement": "A container operation on a flow changes only that flow: other flows and the list objects flows were built from stay as they are.", "quantifier": "every set of flows, shared lists included", "why_tests_cant": "aliasing", "anchors": ["mdp/linear_flows.py: Flow.__init__, __setitem__, __iadd__"]}
{"id": "C69", "title": "Container operations act like the list operations", "statement": "append, extend, insert, pop, item/slice get, set and delete, + and += give the sequence of nodes that the Python list operation gives.", "quantifier": "every flow, index and slice", "why_tests_cant": "all slices", "anchors": ["mdp/linear_flows.py: Flow.__getitem__ ... pop"]}
{"id": "C70", "title": "Slice assignment stores the given nodes", "statement": "flow[i:j] = iterable replaces the slice by the nodes of the iterable.", "quantifier": "every iterable", "why_tests_cant": "one-shot iterators are not tested", "anchors": ["mdp/linear_flows.py: Flow.__setitem__"]}
{"id": "C71", "title": "Consistent node lists are accepted", "statement": "A list of nodes in which all adjacent dimensions that are both set agree is accepted by Flow.", "quantifier": "every list of nodes", "why_tests_cant": "edge values", "anchors": ["mdp/linear_flows.py: Flow._check_dimension_consistency"]}
{"id": "C72", "title": "add_tree builds the tree", "statement": "add_tree of a nested sequence (each sequence starting with a value) adds one new node per value and one edge from each root to the root of each of its sons, and returns the same nested shape with the new nodes; every new node is reachable from the root and all but the root have exactly one of the added edges in.", "quantifier": "every graph and nested sequence", "why_tests_cant": "unbounded nesting", "anchors": ["mdp/graph/graph.py: Graph.add_tree, recursive_map, recursive_reduce"]}
{"id": "C73", "title": "add_full_connectivity adds the product", "statement": "add_full_connectivity(a, b) adds exactly one new edge for each pair of a x b and returns them grouped by the node of a.", "quantifier": "every graph and node lists", "why_tests_cant": "all lists", "anchors": ["mdp/graph/graph.py: Graph.add_full_connectivity"]}
{"id": "C74", "title": "Degrees and edge queries", "statement": "The in-degrees sum to the number of edges, so do the out-degrees, and the degrees to twice that; get_edges_in/out/get_edges with a neighbour return exactly the edges joining the two nodes.", "quantifier": "every graph", "why_tests_cant": "all graphs", "anchors": ["mdp/graph/graph.py: GraphNode.get_edges, degree, in_degree, out_degree"]}
{"id": "C75", "title": "dfs returns a depth-first order", "statement": "dfs lists the reachable nodes in a depth-first order: after a node come its not yet visited sons, each followed by everything below it not yet visited.", "quantifier": "every graph and root", "why_tests_cant": "order on all graphs", "anchors": ["mdp/graph/graph.py: Graph._dfs"]}
{"id": "C76", "title": "bfs returns a breadth-first order", "statement": "bfs lists the reachable nodes by non-decreasing distance (number of edges of a shortest path) from the root.", "quantifier": "every graph and root", "why_tests_cant": "order on all graphs", "anchors": ["mdp/graph/graph.py: Graph._bfs"]}
{"id": "C77", "title": "remove_node removes any node of the graph", "statement": "remove_node of a node of the graph succeeds and removes exactly the node and the edges at it.", "quantifier": "every graph and node", "why_tests_cant": "self loops are not tested", "anchors": ["mdp/graph/graph.py: Graph.remove_node"]}
{"id": "C78", "title": "Own method restored although a superclass is registered", "statement": "A class that defines a method itself has it again after activation and deactivation of an extension that overrides the method in the class and in its superclass.", "quantifier": "every class hierarchy", "why_tests_cant": "needs unusual hierarchies", "anchors": ["mdp/extension.py: activate_extension, deactivate_extension"]}
{"id": "C79", "title": "Registration order does not matter", "statement": "Activation and deactivation restore what every class inherits, in whatever order the classes were registered.", "quantifier": "every registration order", "why_tests_cant": "needs unusual orders", "anchors": ["mdp/extension.py: activate_extension"]}
{"id": "C80", "title": "Static and class methods are restored", "statement": "After activation and deactivation static and class methods behave as before.", "quantifier": "every kind of attribute", "why_tests_cant": "tests override plain methods only", "anchors": ["mdp/extension.py: activate_extension, deactivate_extension"]}
{"id": "C81", "title": "Re-exposed attributes are restored", "statement": "A class that sets an attribute to the value a remoter superclass has keeps it over activation and deactivation.", "quantifier": "every class hierarchy", "why_tests_cant": "needs unusual hierarchies", "anchors": ["mdp/extension.py: deactivate_extension"]}
{"id": "C82", "title": "Independent extensions can be activated and deactivated in any order", "statement": "For extensions that give each attribute to unrelated classes only: after any sequence of activate/deactivate_extension(s) calls, failing ones included, every class dictionary has exactly the attributes of the active extensions, all else as originally; with none active the dictionaries are the original ones.", "quantifier": "every registry and call sequence", "why_tests_cant": "unbounded sequences", "anchors": ["mdp/extension.py: activate_extension, deactivate_extension, activate_extensions, deactivate_extensions"]}
{"id": "C83", "title": "A context with several extensions is like nested contexts", "statement": "with extension([a, b]) leaves the classes as nested with extension(a), with extension(b) does.", "quantifier": "every registry", "why_tests_cant": "exit order", "anchors": ["mdp/extension.py: extension.__exit__"]}
{"id": "C84", "title": "The prefixed name gives the original method", "statement": "While an extension is active, the _non_extension_ name on a class gives the method the class had without the extension.", "quantifier": "every class hierarchy", "why_tests_cant": "needs unusual hierarchies", "anchors": ["mdp/extension.py: activate_extension"]}
{"id": "C85", "title": "A raising setup function leaves no trace", "statement": "If the setup function of an extension raises, the classes and the active extensions are as before.", "quantifier": "every registry", "why_tests_cant": "error paths", "anchors": ["mdp/extension.py: activate_extension"]}
{"id": "C86", "title": "Invalid connections are rejected", "statement": "Switchboard rejects connection lists with an entry outside 0..input_dim-1, so that an accepted board can always be executed.", "quantifier": "every connection list", "why_tests_cant": "values out of range are not tested", "anchors": ["mdp/hinet/switchboard.py: Switchboard.__init__, is_invertible"]}
{"id": "C87", "title": "Uncovered inputs are rejected", "statement": "With ignore_cover off, Rectangular2dSwitchboard rejects parameters for which some input channel is in no field.", "quantifier": "all sizes and spacings", "why_tests_cant": "all parameter values", "anchors": ["mdp/hinet/switchboard.py: Rectangular2dSwitchboard.__init__"]}
{"id": "C88", "title": "Rhombic fields cover the inner points twice", "statement": "In a DoubleRhomb2dSwitchboard no input is connected more than twice, and every input between the centres of the first and last output channel (both directions) exactly twice.", "quantifier": "all image sizes and diagonals", "why_tests_cant": "all parameter values", "anchors": ["mdp/hinet/switchboard.py: DoubleRhomb2dSwitchboard.__init__"]}
{"id": "C89", "title": "Spacings must be positive", "statement": "Rectangular2dSwitchboard rejects spacings that are not positive.", "quantifier": "all parameters", "why_tests_cant": "invalid values", "anchors": ["mdp/hinet/switchboard.py: Rectangular2dSwitchboard.__init__"]}
{"id": "C90", "title": "Channel indices are interpreted alike", "statement": "get_out_channel_input and get_out_channels_input_channels agree on which output channel an index denotes.", "quantifier": "every index", "why_tests_cant": "indices out of range", "anchors": ["mdp/hinet/switchboard.py: ChannelSwitchboard.get_out_channel_input, get_out_channels_input_channels"]}
{"id": "C91", "title": "A layer trains its nodes independently", "statement": "Training a Layer phase by phase leaves every node in the state it reaches when trained alone on its own block of columns of every chunk (SameInputLayer: on the whole data), nodes that are not in training are not called; if a node raises, the nodes before it have been trained and the ones after it untouched.", "quantifier": "all nodes, data, numbers of phases", "why_tests_cant": "all combinations of phases", "anchors": ["mdp/hinet/layer.py: Layer._train, _stop_training, SameInputLayer._train"]}
{"id": "C92", "title": "The phases of a layer suffice", "statement": "After as many phases as the layer's train sequence has (the maximum over its nodes), no node of the layer is in training.", "quantifier": "all nodes whose remaining phases are at most their train sequence", "why_tests_cant": "all combinations of phases", "anchors": ["mdp/hinet/layer.py: Layer._get_train_seq"]}
{"id": "C93", "title": "A layer trains only as long as some node does", "statement": "The number of phases of a newly created layer is the largest number of phases its nodes still need.", "quantifier": "all layers, including pretrained nodes", "why_tests_cant": "pretrained nodes with several phases", "anchors": ["mdp/hinet/layer.py: Layer.__init__, _get_train_seq"]}
{"id": "C94", "title": "CloneLayer executes like Layer([node]*n)", "statement": "CloneLayer(node, n) executes in the same way as Layer([node]*n) for every node (docstring).", "quantifier": "every node", "why_tests_cant": "nodes that do not act row by row", "anchors": ["mdp/hinet/layer.py: CloneLayer._execute"]}
{"id": "C95", "title": "CloneLayer training", "statement": "Training a CloneLayer on a chunk trains its node on each block of columns in turn, and stop_training closes the node's phase exactly once.", "quantifier": "all n, nodes, data", "why_tests_cant": "all n", "anchors": ["mdp/hinet/layer.py: CloneLayer._stop_training, Layer._train"]}
{"id": "C96", "title": "Outputs with different numbers of rows are rejected", "statement": "Layer.execute raises if the nodes return different numbers of rows.", "quantifier": "all nodes", "why_tests_cant": "broadcasting of single rows", "anchors": ["mdp/hinet/layer.py: Layer._execute"]}
{"id": "C97", "title": "One node several times in a layer", "statement": "Layer([node]*n) can be trained if the node can.", "quantifier": "nodes with several phases", "why_tests_cant": "several phases", "anchors": ["mdp/hinet/layer.py: Layer._stop_training"]}
{"id": "C98", "title": "FlowNode.execute equals the execution of its flow", "statement": "FlowNode.execute(x) returns what its (trained) flow returns for x.", "quantifier": "all flows and data", "why_tests_cant": "nodes whose dims are not set yet", "anchors": ["mdp/hinet/flownode.py: FlowNode._execute, _set_output_dim"]}
{"id": "C99", "title": "FlowNode.copy copies the nodes", "statement": "A successful FlowNode.copy holds the copies of the nodes in order, and the original still consists of the same nodes; a node whose copy raises leaves the original unchanged.", "quantifier": "all flows", "why_tests_cant": "all flows", "anchors": ["mdp/hinet/flownode.py: FlowNode.copy"]}
{"id": "C100", "title": "FlowNode.copy leaves the original as it was", "statement": "After copying, the original FlowNode behaves as before.", "quantifier": "all flows", "why_tests_cant": "repeated copies", "anchors": ["mdp/hinet/flownode.py: FlowNode.copy"]}
{"id": "C101", "title": "A failing FlowNode.copy leaves the original usable", "statement": "If copy raises, the original FlowNode still has its flow.", "quantifier": "error in deepcopy", "why_tests_cant": "error paths", "anchors": ["mdp/hinet/flownode.py: FlowNode.copy"]}
{"id": "C102", "title": "set_task_callable accepts what add_task accepts", "statement": "A callable that add_task accepts (any function, it is wrapped) can also be given to set_task_callable.", "quantifier": "all callables", "why_tests_cant": "error paths", "anchors": ["mdp/parallel/scheduling.py: Scheduler.set_task_callable, add_task"]}
{"id": "C103", "title": "ProcessScheduler.get_results survives a raising task", "statement": "If a task raises in its worker process, a later get_results still returns or raises.", "quantifier": "every execution", "why_tests_cant": "error paths under concurrency", "anchors": ["mdp/parallel/process_schedule.py: ProcessScheduler._task_thread, _process_run", "mdp/parallel/scheduling.py: Scheduler.get_results"]}
{"id": "C104", "title": "ProcessScheduler can be shut down after get_results", "statement": "Once get_results has returned the results of all tasks, shutdown succeeds.", "quantifier": "every interleaving", "why_tests_cant": "a race of a few instructions", "anchors": ["mdp/parallel/process_schedule.py: ProcessScheduler._shutdown, _task_thread"]}
{"id": "C105", "title": "A fork of the callable is called", "statement": "As documented in TaskCallable.fork, instead of the callable a fresh fork of it is called, with every scheduler.", "quantifier": "all schedulers and options", "why_tests_cant": "option cache_callable=False", "anchors": ["mdp/parallel/process_schedule.py: _process_run", "mdp/parallel/scheduling.py: TaskCallable.fork"]}
{"id": "C106", "title": "A raising task does not make other tasks fail", "statement": "If one task of a ProcessScheduler raises, tasks added later still get computed.", "quantifier": "every execution", "why_tests_cant": "error paths under concurrency", "anchors": ["mdp/parallel/process_schedule.py: ProcessScheduler._task_thread"]}
{"id": "C107", "title": "ThreadScheduler computes the map", "statement": "In every interleaving of the ThreadScheduler's threads get_results returns the results of all tasks added since the last get_results in the order of submission, each computed by a fork of the callable of its task; if no task raises, the threads finish and get_results returns.", "quantifier": "every interleaving, number of threads, tasks", "why_tests_cant": "all interleavings", "anchors": ["mdp/parallel/thread_schedule.py: ThreadScheduler._process_task, _task_thread"]}
{"id": "C108", "title": "ThreadScheduler.get_results survives a raising task", "statement": "If a task raises in its thread, a later get_results still returns or raises.", "quantifier": "every execution", "why_tests_cant": "error paths under concurrency", "anchors": ["mdp/parallel/thread_schedule.py: ThreadScheduler._task_thread"]}
{"id": "C109", "title": "Parallel execution respects nodenr", "statement": "ParallelFlow.execute(x, nodenr=k, scheduler=s) returns the output of node k, as Flow.execute(x, nodenr=k) does.", "quantifier": "every flow and k", "why_tests_cant": "the combination is not tested", "anchors": ["mdp/parallel/parallelflows.py: ParallelFlow.setup_parallel_execution"]}
{"id": "C110", "title": "A flow can be trained again after a failed parallel training", "statement": "If ParallelFlow.train raises because of missing data, calling it again with complete data trains the flow.", "quantifier": "every flow and data", "why_tests_cant": "error recovery", "anchors": ["mdp/parallel/parallelflows.py: ParallelFlow.train, _next_train_phase"]}
{"id": "C111", "title": "Sample lists do not depend on completion order", "statement": "HistogramNode and KNNClassifier hold the same list of training samples after parallel training as after serial training.", "quantifier": "every completion order", "why_tests_cant": "order is scheduler dependent", "anchors": ["mdp/parallel/parallelnodes.py: ParallelHistogramNode", "mdp/parallel/parallelclassifiers.py: ParallelKNNClassifier"]}
{"id": "C112", "title": "One scheduler per node", "statement": "If ParallelFlow.train is given an iterable of schedulers, the phases of node i run on scheduler i, and the schedulers up to that of the last trained node are shut down exactly once.", "quantifier": "every sequence of trained nodes", "why_tests_cant": "all sequences", "anchors": ["mdp/parallel/parallelflows.py: ParallelFlow.train"]}
{"id": "C113", "title": "Schedulers for a trained flow are disposed of", "statement": "ParallelFlow.train with an iterable of schedulers returns normally if all nodes are already trained.", "quantifier": "every trained flow", "why_tests_cant": "dead branch", "anchors": ["mdp/parallel/parallelflows.py: ParallelFlow.train"]}
{"id": "C114", "title": "ParallelCheckpointFlow trains serially without scheduler", "statement": "ParallelCheckpointFlow.train(data, checkpoints) without a scheduler trains like CheckpointFlow.train.", "quantifier": "every flow", "why_tests_cant": "default argument", "anchors": ["mdp/parallel/parallelflows.py: ParallelCheckpointFlow.train"]}
{"id": "C115", "title": "Execution forks are joined once", "statement": "After ParallelFlow.execute of a flow with execute forks, the flow has absorbed the forks of this execution and nothing else.", "quantifier": "every sequence of executions on one scheduler", "why_tests_cant": "state kept in the container", "anchors": ["mdp/parallel/parallelflows.py: ExecuteResultContainer"]}
{"id": "C116", "title": "Lagged covariance of a transformed signal", "statement": "DelayCovarianceMatrix.fix(A) is the lagged covariance of the signal transformed by A.", "quantifier": "all data, chunkings, matrices", "why_tests_cant": "all reals/rationals", "anchors": ["mdp/utils/covariance.py: DelayCovarianceMatrix.fix"]}
{"id": "C117", "title": "Covariance with varying time steps", "statement": "VartimeCovarianceMatrix with connected chunks (time_dep, increments given) returns mean, covariance and length of the trapezoid rule over the concatenated sequence, however it was cut into chunks of at least two rows.", "quantifier": "all data, increments and chunkings", "why_tests_cant": "all reals/rationals", "anchors": ["mdp/utils/covariance.py: VartimeCovarianceMatrix"]}
{"id": "C118", "title": "fix resets the covariance object", "statement": "After fix every covariance object behaves as a new one.", "quantifier": "all objects", "why_tests_cant": "state left over", "anchors": ["mdp/utils/covariance.py: VartimeCovarianceMatrix.fix, CovarianceMatrix.fix, DelayCovarianceMatrix.fix, CrossCovarianceMatrix.fix"]}
{"id": "C119", "title": "Chunks of one row with varying time steps", "statement": "The length accumulated by VartimeCovarianceMatrix is the sum of the increments given, also for chunks of one row.", "quantifier": "all chunkings", "why_tests_cant": "slice with -1+1", "anchors": ["mdp/utils/covariance.py: VartimeCovarianceMatrix.update"]}
{"id": "C120", "title": "mult_diag", "statement": "mult_diag(d, m, left) is the product of m with the diagonal matrix of d on that side.", "quantifier": "all matrices", "why_tests_cant": "all", "anchors": ["mdp/utils/routines.py: mult_diag"]}
{"id": "C121", "title": "Weights of several covariance matrices", "statement": "MultipleCovarianceMatrices.weight accepts a single value or a sequence (docstring) and multiplies each matrix by its weight.", "quantifier": "all weights", "why_tests_cant": "kinds of arguments", "anchors": ["mdp/utils/covariance.py: MultipleCovarianceMatrices.weight"]}
{"id": "C122", "title": "comb outside the range", "statement": "comb(N,k) is 0 for every k outside 0..N.", "quantifier": "all N,k", "why_tests_cant": "out of range arguments", "anchors": ["mdp/utils/routines.py: comb"]}
{"id": "C123", "title": "cov_maxima", "statement": "cov_maxima returns as many values as the matrix has rows, in non-increasing order: the largest absolute value, then the largest of what is left without its row and column, and so on.", "quantifier": "all square matrices", "why_tests_cant": "all", "anchors": ["mdp/utils/routines.py: cov_maxima"]}
{"id": "C124", "title": "weighted_choice", "statement": "weighted_choice (normalising) returns a key exactly for the random numbers of an interval whose length is the key's share of the total weight; it always returns a key.", "quantifier": "all dicts with non-negative weights of positive sum, all random numbers in [0,1)", "why_tests_cant": "random", "anchors": ["mdp/utils/routines.py: weighted_choice"]}
{"id": "C125", "title": "bool_to_sign and sign_to_bool are inverse", "statement": "sign_to_bool(bool_to_sign(a)) = a, bool_to_sign gives only -1 and 1, and sign_to_bool sends 0 to the value of zero.", "quantifier": "all arrays", "why_tests_cant": "all", "anchors": ["mdp/utils/routines.py: bool_to_sign, sign_to_bool"]}
{"id": "C126", "title": "Hits are local maxima", "statement": "Every maximum kept by HitParadeNode is a local maximum (docstring): no larger value lies within distance d of it.", "quantifier": "all signals", "why_tests_cant": "monotone stretches", "anchors": ["mdp/nodes/misc_nodes.py: OneDimensionalHitParade.update"]}
{"id": "C127", "title": "Sliding window with gap 0", "statement": "TimeDelaySlidingWindowNode agrees with TimeDelayNode also for gap 0.", "quantifier": "all sequences", "why_tests_cant": "boundary value", "anchors": ["mdp/nodes/misc_nodes.py: TimeDelaySlidingWindowNode._execute"]}
{"id": "C128", "title": "Adaptive cutoff clips the given fraction", "statement": "AdaptiveCutoffNode's lower bound clips floor(f*N) of N different values, and its upper bound as many for the same fraction.", "quantifier": "all data, fractions in (0,1)", "why_tests_cant": "all", "anchors": ["mdp/nodes/misc_nodes.py: AdaptiveCutoffNode._stop_training"]}
{"id": "C129", "title": "Every cutoff fraction is accepted", "statement": "AdaptiveCutoffNode can be trained with every fraction from 0 to 1.", "quantifier": "all data", "why_tests_cant": "boundary value", "anchors": ["mdp/nodes/misc_nodes.py: AdaptiveCutoffNode._stop_training"]}
{"id": "C130", "title": "Eta values", "statement": "EtaComputerNode's delta value of a channel is the mean squared derivative over the unbiased variance, of all points but the last of every chunk; derivatives never span chunks.", "quantifier": "all signals and chunkings", "why_tests_cant": "all reals/rationals", "anchors": ["mdp/nodes/misc_nodes.py: EtaComputerNode"]}
{"id": "C131", "title": "Polynomial expansion of degree 0", "statement": "PolynomialExpansionNode(0) can be executed and returns no columns (expanded_dim is 0).", "quantifier": "all data", "why_tests_cant": "boundary value", "anchors": ["mdp/nodes/expansion_nodes.py: PolynomialExpansionNode._execute"]}
{"id": "C132", "title": "Recursive expansion is complete and non-redundant", "statement": "RecursiveExpansionNode.execute returns, for each vector of degrees (one per variable) of sum at most degree, exactly once the product of the functions of these degrees of the variables; the functions are the powers, Legendre polynomials, Legendre rational functions or Chebyshev polynomials; the constant comes first and is left out without with0; the order of columns depends only on degree and input_dim; the number of columns is output_dim.", "quantifier": "all families, degrees, inputs", "why_tests_cant": "all degrees and dimensions", "anchors": ["mdp/nodes/recursive_expansion_nodes.py: RecursiveExpansionNode._execute, process, recf_*, init_*"]}
{"id": "C133", "title": "Recursive expansion with input_dim", "statement": "RecursiveExpansionNode(degree, input_dim=n) creates a node of that input dim.", "quantifier": "all degrees and n", "why_tests_cant": "constructor order", "anchors": ["mdp/nodes/recursive_expansion_nodes.py: RecursiveExpansionNode.__init__"]}
{"id": "C134", "title": "Recursive expansion of degree 1", "statement": "With degree 1 the columns are the first functions of the family.", "quantifier": "all families", "why_tests_cant": "special case in the code", "anchors": ["mdp/nodes/recursive_expansion_nodes.py: RecursiveExpansionNode._execute"]}
{"id": "C135", "title": "Recursive expansion of degree 0", "statement": "With degree 0 the node returns output_dim columns.", "quantifier": "all inputs", "why_tests_cant": "special case in the code", "anchors": ["mdp/nodes/recursive_expansion_nodes.py: RecursiveExpansionNode._execute"]}
{"id": "C136", "title": "Normalisation to the domain", "statement": "After training, NormalizingRecursiveExpansionNode's transformation maps every value seen in training into the domain of the functions, for bounded, half-bounded and unbounded domains, however the data was cut into chunks.", "quantifier": "all training data, chunkings, domains", "why_tests_cant": "all reals/rationals", "anchors": ["mdp/nodes/recursive_expansion_nodes.py: NormalizingRecursiveExpansionNode._train, _stop_training"]}
{"id": "C137", "title": "Execution does not change its input", "statement": "NormalizingRecursiveExpansionNode.execute leaves the array of the caller unchanged and gives the same result when repeated.", "quantifier": "all data", "why_tests_cant": "aliasing", "anchors": ["mdp/nodes/recursive_expansion_nodes.py: NormalizingRecursiveExpansionNode._execute, _stop_training"]}
{"id": "C138", "title": "Caching after a failed check", "statement": "A program behaves the same with and without the caching extension also if an execute is refused by the checks.", "quantifier": "all histories", "why_tests_cant": "needs two equal nodes", "anchors": ["mdp/caching/caching_extension.py: CacheExecuteExtensionNode.execute"]}
{"id": "C139", "title": "What is cached", "statement": "After activate_caching exactly the given classes and instances are cached, everything if none are given.", "quantifier": "all arguments, all states before", "why_tests_cant": "state left over", "anchors": ["mdp/caching/caching_extension.py: activate_caching, CacheExecuteExtensionNode.is_cached"]}
{"id": "C140", "title": "Switching instance caching", "statement": "After set_instance_cache(False) an instance not selected by class or globally is not cached.", "quantifier": "all states", "why_tests_cant": "list with duplicates", "anchors": ["mdp/caching/caching_extension.py: CacheExecuteExtensionNode.set_instance_cache"]}
{"id": "C141", "title": "The cache extension can be activated by name", "statement": "mdp.activate_extension('cache_execute') gives nodes that can be executed.", "quantifier": "all states", "why_tests_cant": "global state", "anchors": ["mdp/caching/caching_extension.py: CacheExecuteExtensionNode.execute"]}
{"id": "C142", "title": "Labels accepted by ClassifierCumulator", "statement": "ClassifierCumulator.train accepts single labels, lists and arrays of labels (docstring of the subclasses), and stop_training returns all data with their labels in order.", "quantifier": "all sequences of train calls", "why_tests_cant": "kinds of arguments", "anchors": ["mdp/classifier_node.py: ClassifierCumulator._train, _stop_training"]}
{"id": "C143", "title": "Single label of SimpleMarkovClassifier", "statement": "SimpleMarkovClassifier.train(features, label) with a single label of any type assigns all features to it (docstring).", "quantifier": "all labels", "why_tests_cant": "strings are iterable", "anchors": ["mdp/nodes/classifier_nodes.py: SimpleMarkovClassifier._train"]}
{"id": "C144", "title": "Stored patterns are recalled", "statement": "A Hopfield network with at most as many patterns as units and threshold 0 recalls a stored pattern that is orthogonal to the other patterns (in particular a single stored pattern), and its complement, unchanged.", "quantifier": "all pattern sets, update orders", "why_tests_cant": "all random orders", "anchors": ["mdp/nodes/classifier_nodes.py: DiscreteHopfieldClassifier._train, _stop_training, _label_one"]}
{"id": "C145", "title": "K-means ends in a fixed point", "statement": "When KMeansClassifier.stop_training ends before max_iter, every centroid is the mean of the training points nearest to it (or has none), and label returns a nearest centroid.", "quantifier": "all data, all initial choices", "why_tests_cant": "all reals/rationals", "anchors": ["mdp/nodes/classifier_nodes.py: KMeansClassifier._stop_training, _label"]}
{"id": "C146", "title": "K-means terminates", "statement": "KMeansClassifier.stop_training ends for every data set and initial choice if max_iter is at least k^n+1.", "quantifier": "all data, all initial choices", "why_tests_cant": "termination", "anchors": ["mdp/nodes/classifier_nodes.py: KMeansClassifier._stop_training"]}
{"id": "C147", "title": "K-means within max_iter", "statement": "A KMeansClassifier whose training has ended can label data, also if max_iter was reached.", "quantifier": "all data, max_iter > 0", "why_tests_cant": "slow convergence", "anchors": ["mdp/nodes/classifier_nodes.py: KMeansClassifier._stop_training"]}
{"id": "C148", "title": "Perceptron convergence", "statement": "PerceptronClassifier makes a bounded number of mistakes on any sequence of samples from a linearly separable set, and after enough passes through the set labels all of it correctly.", "quantifier": "all separable sets and orders", "why_tests_cant": "unbounded number of passes", "anchors": ["mdp/nodes/classifier_nodes.py: PerceptronClassifier._train, _label"]}
{"id": "C149", "title": "Signum classifier", "statement": "SignumClassifier labels every point with the sign of the sum of its components.", "quantifier": "all data", "why_tests_cant": "all", "anchors": ["mdp/nodes/classifier_nodes.py: SignumClassifier._label"]}
{"id": "C150", "title": "Gaussian classifier fits every class", "statement": "After GaussianClassifier.stop_training the labels are those of the training data, and for each class the stored mean, covariance and prior are the mean, the unbiased covariance and the relative frequency of its samples, whatever the order of calls; the priors sum to 1.", "quantifier": "all training histories with at least two samples per class", "why_tests_cant": "all reals/rationals", "anchors": ["mdp/nodes/classifier_nodes.py: GaussianClassifier._train, _update_covs, _stop_training"]}
{"id": "C151", "title": "Gaussian posterior", "statement": "prob returns values that sum to 1 and are proportional to prior times density; label returns a class maximising it.", "quantifier": "all states, points", "why_tests_cant": "all", "anchors": ["mdp/nodes/classifier_nodes.py: GaussianClassifier.class_probabilities, _prob, _label"]}
{"id": "C152", "title": "Failed stop_training of the Gaussian classifier", "statement": "A GaussianClassifier whose stop_training failed (singular covariance) can be trained further and then fits every class.", "quantifier": "all histories with a failure", "why_tests_cant": "state after an exception", "anchors": ["mdp/nodes/classifier_nodes.py: GaussianClassifier._stop_training"]}
{"id": "C153", "title": "Data channel between the phases of an OnlineNode", "statement": "A training call of an OnlineNode goes through all its phases: phase p is trained on the data transformed by the channels of the phases before; in incremental mode row by row (all phases for a row before the next row), in batch mode with the whole chunk.", "quantifier": "all numbers of phases, channels, data, histories before", "why_tests_cant": "all lists", "anchors": ["mdp/signal_node_online.py: OnlineNode.train"]}
{"id": "C154", "title": "Incremental training does not depend on chunks", "statement": "In incremental mode, training on several chunks leaves the same node (or ends with the same exception in the same state) as one call with the concatenated rows.", "quantifier": "all nodes whose parameters are initialised from the number of columns and the dtype; all chunkings", "why_tests_cant": "all chunkings", "anchors": ["mdp/signal_node_online.py: OnlineNode.train"]}
{"id": "C155", "title": "A failed stop_training of an OnlineNode can be repeated", "statement": "If stop_training raises, repeating it closes every phase once.", "quantifier": "all nodes", "why_tests_cant": "error recovery", "anchors": ["mdp/signal_node_online.py: OnlineNode.stop_training"]}
{"id": "C156", "title": "OnlineFlow.train can be continued", "statement": "OnlineFlow.train leaves every OnlineNode of the flow open for further training.", "quantifier": "all flows, all data", "why_tests_cant": "all histories", "anchors": ["mdp/linear_flows_online.py: OnlineFlow.train, _train_nodes, Flow._close_last_node"]}
{"id": "C157", "title": "Iterations of a circular flow", "statement": "CircularOnlineFlow.train passes every data element flow_iterations times around the flow, feeding the output of a pass into the next one; with ignore_input the stored input is used instead of the data.", "quantifier": "all flows, numbers of iterations, data", "why_tests_cant": "all", "anchors": ["mdp/linear_flows_online.py: CircularOnlineFlow._train_nodes, train"]}
{"id": "C158", "title": "OnlineFlow as a container", "statement": "After any history of container operations an OnlineFlow is consistent (dims of adjacent nodes agree, only the last node is a Node in training) and its list of training arguments belongs to its nodes; an operation that raises leaves the flow as it was; one that returns has the effect of the list operation.", "quantifier": "all flows, all histories", "why_tests_cant": "all histories", "anchors": ["mdp/linear_flows_online.py: OnlineFlow.__setitem__, __delitem__, __iadd__, append, extend, insert"]}
{"id": "C159", "title": "append is +", "statement": "flow.append(node) accepts the nodes that flow + node accepts, with the same resulting sequence.", "quantifier": "all flows and nodes", "why_tests_cant": "all", "anchors": ["mdp/linear_flows_online.py: OnlineFlow.append, insert, __add__"]}
{"id": "C160", "title": "Stored input of a circular flow", "statement": "set_stored_input(x) either raises or stores x.", "quantifier": "all flows, x", "why_tests_cant": "unknown dims", "anchors": ["mdp/linear_flows_online.py: CircularOnlineFlow.set_stored_input"]}
{"id": "C161", "title": "CircularOnlineFlow as a container", "statement": "Deleting, assigning and inserting nodes of a CircularOnlineFlow work, and keep the output node if it is not touched.", "quantifier": "all flows, all operations", "why_tests_cant": "all", "anchors": ["mdp/linear_flows_online.py: CircularOnlineFlow.__setitem__, __delitem__, insert"]}
{"id": "C162", "title": "Inverse and concatenation of circular flows", "statement": "A CircularOnlineFlow of invertible nodes can be inverted, and concatenated with an OnlineFlow of OnlineNodes.", "quantifier": "all flows", "why_tests_cant": "all", "anchors": ["mdp/linear_flows_online.py: CircularOnlineFlow._inverse_seq, __add__"]}
{"id": "C163", "title": "Online centering subtracts the average", "statement": "After training, OnlineCenteringNode.execute(x) is x minus the average of the rows trained on (docstring).", "quantifier": "all histories", "why_tests_cant": "boundary value", "anchors": ["mdp/nodes/stats_nodes_online.py: OnlineCenteringNode._execute"]}
{"id": "C164", "title": "Online centering can be inverted", "statement": "inverse(execute(x)) is x.", "quantifier": "all histories, x", "why_tests_cant": "all", "anchors": ["mdp/nodes/stats_nodes_online.py: OnlineCenteringNode._execute, _inverse"]}
{"id": "C165", "title": "Online time differences", "statement": "In incremental mode, after training on rows x1..xn (n > 1), OnlineTimeDiffNode.execute([xn, y1, ...]) returns the differences of x(n-1), xn, y1, ....", "quantifier": "all histories of calls", "why_tests_cant": "all histories", "anchors": ["mdp/nodes/stats_nodes_online.py: OnlineTimeDiffNode"]}
{"id": "C166", "title": "Online time differences in batch mode", "statement": "The same holds in batch mode (example in the docstring).", "quantifier": "all histories of calls", "why_tests_cant": "training type", "anchors": ["mdp/nodes/stats_nodes_online.py: OnlineTimeDiffNode._check_params, _train"]}
{"id": "C167", "title": "BiNode.stop_training closes one phase", "statement": "BiNode.stop_training is possible only in a started training phase, closes exactly this phase, ends the training after the last one, and returns the result of _stop_training laid over the stop_result of this phase.", "quantifier": "all node classes, states", "why_tests_cant": "all result forms", "anchors": ["bimdp/binode.py: BiNode.stop_training, _combine_result"]}
{"id": "C168", "title": "A trained BiNode can stop", "statement": "After train returned normally, stop_training does not complain that the node has not been trained.", "quantifier": "all messages and arrays", "why_tests_cant": "message-only training", "anchors": ["bimdp/binode.py: BiNode.train, stop_training"]}
{"id": "C169", "title": "BiNode.train stays in the phase", "statement": "BiNode.train never ends the training phase.", "quantifier": "all messages", "why_tests_cant": "magic keys", "anchors": ["bimdp/binode.py: BiNode.train, _get_method"]}
{"id": "C170", "title": "Plain keys a method does not know are ignored", "statement": "A plain message key that is not an additional argument of the method does not disturb the call.", "quantifier": "all messages", "why_tests_cant": "key names", "anchors": ["bimdp/binode.py: BiNode._extract_method_args"]}
{"id": "C171", "title": "Collecting results leaves the messages alone", "statement": "BiFlow.execute collects the messages of all chunks; a list in the message of one chunk, which the node may still hold, is not changed by this.", "quantifier": "all sequences of messages", "why_tests_cant": "aliasing", "anchors": ["bimdp/biflow.py: MessageResultContainer.add_message, BiFlow.execute"]}
{"id": "C172", "title": "The collected message can be asked for again", "statement": "MessageResultContainer.get_message can be called several times, also with further messages added in between, and gives the combination of all messages added so far.", "quantifier": "all sequences of messages and calls", "why_tests_cant": "deferred concatenation", "anchors": ["bimdp/biflow.py: MessageResultContainer.get_message, add_message"]}
{"id": "C173", "title": "A BiFlow of normal nodes is a Flow", "statement": "BiFlow.execute on normal nodes returns, chunk by chunk, the composition of the nodes, and carries the message of a chunk through unchanged.", "quantifier": "all nodes, chunks, states of the nodes", "why_tests_cant": "induction over the flow", "anchors": ["bimdp/biflow.py: BiFlow.execute, _execute_seq"]}
{"id": "C174", "title": "The node in training is not executed", "statement": "While a BiFlow trains a node with the chunks of a phase, other nodes may be executed several times, but never the node that is trained.", "quantifier": "all nodes, targets, chunks", "why_tests_cant": "loops with jumps", "anchors": ["bimdp/biflow.py: BiFlow._train_node_single_phase, _execute_seq"]}
{"id": "C175", "title": "stop_training may start an execution", "statement": "If stop_training of a node returns an array (and a message), an execution phase is started behind this node, which terminates when the end of the flow is reached.", "quantifier": "all nodes and positions", "why_tests_cant": "last node", "anchors": ["bimdp/biflow.py: BiFlow._train_node_single_phase, _target_to_index"]}
{"id": "C176", "title": "All training phases see the same messages", "statement": "The training data and messages of a node are the same in every training phase.", "quantifier": "all messages", "why_tests_cant": "dictionaries modified in place", "anchors": ["bimdp/biflow.py: BiFlow._train_node", "bimdp/binode.py: BiNode._extract_message_key, _extract_method_args"]}
{"id": "C177", "title": "A flow without output array can be executed chunk by chunk", "statement": "If no chunk gives an array, BiFlow.execute returns no array; an exception is raised only if some chunks give one and some do not.", "quantifier": "all numbers of chunks", "why_tests_cant": "two chunks without array", "anchors": ["bimdp/biflow.py: BiFlow.execute"]}
{"id": "C178", "title": "Checkpoints of a BiFlow need not return anything", "statement": "BiCheckpointFlow.train calls the checkpoint function after the training of the node; if it returns a dictionary, the instance dictionary is updated, else nothing happens.", "quantifier": "all checkpoint functions", "why_tests_cant": "result None", "anchors": ["bimdp/biflow.py: BiCheckpointFlow.train"]}
{"id": "C179", "title": "An unknown start target is reported", "statement": "BiFlow.execute with a target that is not in the flow raises BiFlowException.", "quantifier": "all targets, flows", "why_tests_cant": "start target", "anchors": ["bimdp/biflow.py: BiFlow.execute, _target_to_index"]}
{"id": "C180", "title": "Every chunk starts with reset nodes", "statement": "Before every chunk, in execution and training, bi_reset of all nodes has been called since anything was executed.", "quantifier": "all flows with idempotent bi_reset, all chunks and jumps", "why_tests_cant": "state left by jumps", "anchors": ["bimdp/biflow.py: BiFlow.execute, _train_node, _train_node_single_phase, _bi_reset"]}
{"id": "C181", "title": "A trained BiFlow is trained", "statement": "If BiFlow.train returns normally, no trainable node has training phases left.", "quantifier": "all flows, messages, jumps, data", "why_tests_cant": "training by side effects of the execution", "anchors": ["bimdp/biflow.py: BiFlow.train, _train_node"]}
{"id": "C182", "title": "An OnlineFlowNode trains its nodes as its flow does", "statement": "train of an OnlineFlowNode passes the data through the internal nodes, training each trainable one on what its predecessors return before it is executed, up to and including the training of the last trainable node; OnlineFlow.train does the same and then executes the remaining nodes. Batch training passes the whole array, incremental training its rows, and the iteration counter counts the rows.", "quantifier": "all flows of nodes and online nodes with a trainable node, all arrays, all failures", "why_tests_cant": "all positions of trainable nodes", "anchors": ["mdp/hinet/flownode_online.py: OnlineFlowNode._get_train_seq", "mdp/signal_node_online.py: OnlineNode.train"]}
{"id": "C183", "title": "Trained nodes are allowed in an OnlineFlowNode", "statement": "An OnlineFlowNode whose flow contains trained nodes beside online nodes in training can be trained, as the documentation says.", "quantifier": "all flows of trained nodes, nodes without training and online nodes", "why_tests_cant": "trained node among the internal nodes", "anchors": ["mdp/hinet/flownode_online.py: OnlineFlowNode, OnlineFlowNode._get_train_seq"]}
{"id": "C184", "title": "stop_training closes the internal nodes", "statement": "stop_training of an OnlineFlowNode or CircularOnlineFlowNode in training calls stop_training of every trainable internal node, once and in order; afterwards neither it nor an internal node is in training.", "quantifier": "all flows and training states", "why_tests_cant": "flows starting with an untrainable node; several iterations", "anchors": ["mdp/hinet/flownode_online.py: OnlineFlowNode._get_train_seq, CircularOnlineFlowNode._get_train_seq", "mdp/signal_node_online.py: OnlineNode.stop_training"]}
{"id": "C185", "title": "execute of an OnlineFlowNode is the flow", "statement": "During training, after stop_training, and if no internal node has training left, execute passes the data through all internal nodes; a node that was not trained is trained on the data first.", "quantifier": "all flows, arrays, states", "why_tests_cant": "states of the node and of the internal nodes", "anchors": ["mdp/hinet/flownode_online.py: OnlineFlowNode", "mdp/hinet/flownode.py: FlowNode.__init__, _execute", "mdp/signal_node_online.py: OnlineNode._pre_execution_checks"]}
{"id": "C186", "title": "A CircularOnlineFlowNode trains like its flow", "statement": "train of a CircularOnlineFlowNode leaves the internal nodes and the stored input as CircularOnlineFlow.train does for the same data, number of iterations and ignore_input flag; without stored input and with ignored input TrainingException is raised before any node is touched.", "quantifier": "all flows of open online nodes and nodes without training, all iteration numbers >= 1, all arrays, all failures", "why_tests_cant": "numbers of iterations, positions of trainable nodes", "anchors": ["mdp/hinet/flownode_online.py: CircularOnlineFlowNode._get_train_seq", "mdp/linear_flows_online.py: CircularOnlineFlow._train_nodes"]}
{"id": "C187", "title": "Growing neural gas training never fails", "statement": "GrowingNeuralGasNode.train never raises, for two start positions or random ones, in any number of calls, and tlen counts the points presented.", "quantifier": "all data, parameters, numbers of calls, ways to order equal distances", "why_tests_cant": "nodes and edges are removed while the graph is used", "anchors": ["mdp/nodes/neural_gas_nodes.py: GrowingNeuralGasNode._train, _remove_old_edges, _insert_new_node"]}
{"id": "C188", "title": "The graph of the gas is simple", "statement": "The graph has no loops, at most one edge per pair of nodes, edges only between its nodes, and after the first point every node has a neighbour.", "quantifier": "all data, parameters, calls", "why_tests_cant": "comment in the code: should be one edge only", "anchors": ["mdp/nodes/neural_gas_nodes.py: GrowingNeuralGasNode._train, _remove_old_edges, _insert_new_node"]}
{"id": "C189", "title": "Number of nodes of the gas", "statement": "There are at least 2 nodes, at most max(2, max_nodes), and at most 2 plus one for every lambda_ points.", "quantifier": "all data, parameters, calls", "why_tests_cant": "interplay of removal and insertion", "anchors": ["mdp/nodes/neural_gas_nodes.py: GrowingNeuralGasNode._train, _insert_new_node, _remove_old_edges"]}
{"id": "C190", "title": "No edge is too old", "statement": "After every point no edge is older than max_age, and unless a node is inserted the two nodes nearest to the point are joined by an edge of age 0.", "quantifier": "all data, parameters, calls", "why_tests_cant": "only the edges of the winner are examined", "anchors": ["mdp/nodes/neural_gas_nodes.py: GrowingNeuralGasNode._train, _remove_old_edges"]}
{"id": "C191", "title": "The gas stays in the bounding box", "statement": "If eps_b and eps_n are in [0,1], all positions stay in every box that contains the initial positions and the data.", "quantifier": "all data, parameters, boxes, dimensions", "why_tests_cant": "all boxes", "anchors": ["mdp/nodes/neural_gas_nodes.py: GrowingNeuralGasNode._move_node, _insert_new_node"]}
{"id": "C192", "title": "Training leaves start_poss alone", "statement": "Training does not change the array of start positions passed by the caller.", "quantifier": "all start positions, data", "why_tests_cant": "aliasing", "anchors": ["mdp/nodes/neural_gas_nodes.py: GrowingNeuralGasNode.__init__, _move_node", "mdp/utils/routines.py: refcast"]}
{"id": "C193", "title": "Neural gas keeps its nodes", "statement": "NeuralGasNode.train never raises and never adds or removes nodes, for every number of nodes.", "quantifier": "all numbers of nodes, data, calls", "why_tests_cant": "one node", "anchors": ["mdp/nodes/neural_gas_nodes.py: NeuralGasNode._train"]}
{"id": "C194", "title": "Neural gas removes old edges", "statement": "After NeuralGasNode.train no edge is older than the lifetime of the last epoch.", "quantifier": "all lifetimes, data, calls", "why_tests_cant": "the list is changed during the loop", "anchors": ["mdp/nodes/neural_gas_nodes.py: NeuralGasNode._remove_old_edges, _train"]}
{"id": "C195", "title": "The graph of a NeuralGasNode is simple", "statement": "The graph has no loops, at most one edge per pair of nodes, and all ages of edges are different.", "quantifier": "all data, lifetimes, calls", "why_tests_cant": "all executions", "anchors": ["mdp/nodes/neural_gas_nodes.py: NeuralGasNode._train"]}
{"id": "C196", "title": "Neural gas stays in the bounding box", "statement": "If the step sizes are in [0,1], all positions stay in every box that contains the initial positions and the data.", "quantifier": "all data, step sizes, boxes, permutations", "why_tests_cant": "all boxes", "anchors": ["mdp/nodes/neural_gas_nodes.py: NeuralGasNode._train"]}
{"id": "C197", "title": "Not more than max_epochs epochs", "statement": "By default a NeuralGasNode trains until max_epochs is reached (docstring), so the number of epochs never exceeds max_epochs.", "quantifier": "all numbers of calls", "why_tests_cant": "several calls", "anchors": ["mdp/nodes/neural_gas_nodes.py: NeuralGasNode.__init__, _train"]}
{"id": "C198", "title": "Chunks do not matter for growing neural gas", "statement": "Training on two arrays in two calls gives the same graph, positions, errors and ages as training on the concatenation in one call.", "quantifier": "all data, parameters", "why_tests_cant": "all splits", "anchors": ["mdp/nodes/neural_gas_nodes.py: GrowingNeuralGasNode._train"]}
{"id": "C199", "title": "nearest_neighbor is the nearest neighbour", "statement": "_get_nearest_nodes returns two different nodes, the first with the smallest distance of all nodes, the second with the smallest of the others; nearest_neighbor returns such a node and the root of its squared distance for every point.", "quantifier": "all graphs with at least 2 nodes, all points", "why_tests_cant": "equal distances", "anchors": ["mdp/nodes/neural_gas_nodes.py: GrowingNeuralGasNode._get_nearest_nodes, nearest_neighbor"]}
{"id": "C200", "title": "Linear regression minimises the squared error", "statement": "After train and stop_training, no other coefficients have a smaller sum of squared errors between execute(x) and y over all points presented, for each output; also if the data is redundant and the pseudo-inverse is used.", "quantifier": "all data, chunks, dimensions, with and without bias", "why_tests_cant": "all competitors", "anchors": ["mdp/nodes/regression_nodes.py: LinearRegressionNode._train, _stop_training, _execute"]}
{"id": "C201", "title": "The regression coefficients are unique", "statement": "With the inverse, any coefficients minimising the error are the ones of the node; if the targets are a linear function of the inputs, the node reproduces all of them.", "quantifier": "all data, dimensions", "why_tests_cant": "all minimisers", "anchors": ["mdp/nodes/regression_nodes.py: LinearRegressionNode._stop_training"]}
{"id": "C202", "title": "Order and chunks do not matter for the regression", "statement": "Presenting the same points in another order and other chunks gives the same beta and tlen.", "quantifier": "all permutations and chunks", "why_tests_cant": "all permutations", "anchors": ["mdp/nodes/regression_nodes.py: LinearRegressionNode._train"]}
{"id": "C203", "title": "The constant term", "statement": "execute(x) is b_0 plus the sum of b_i x_i, where b_0 is absent without bias; the constant terms are stored in the first column of beta (docstring).", "quantifier": "all coefficients, inputs, outputs", "why_tests_cant": "several outputs", "anchors": ["mdp/nodes/regression_nodes.py: LinearRegressionNode.__init__, _add_constant, _execute"]}
{"id": "C204", "title": "Redundant data can be completed", "statement": "If stop_training raises because the data is redundant, the node is unchanged and training can continue; the later result is the one for all data.", "quantifier": "all data", "why_tests_cant": "continuing after an exception", "anchors": ["mdp/nodes/regression_nodes.py: LinearRegressionNode._stop_training", "mdp/signal_node.py: Node.stop_training"]}
{"id": "C205", "title": "Rejected targets leave the node unchanged", "statement": "If train raises because y does not fit x, the node is as before.", "quantifier": "all arrays", "why_tests_cant": "state after the exception", "anchors": ["mdp/nodes/regression_nodes.py: LinearRegressionNode._check_train_args"]}
{"id": "C206", "title": "PCA outputs are uncorrelated", "statement": "After training, the outputs of execute on the training data have mean zero and are uncorrelated, the variance of output k is d[k], the variances are nonnegative and in descending order, and avg is the mean of all training data.", "quantifier": "all data, chunks, dimensions, settings; any eigenvalue routine that returns an eigensystem", "why_tests_cant": "all data", "anchors": ["mdp/nodes/pca_nodes.py: PCANode._train, _stop_training, _execute", "mdp/utils/covariance.py: CovarianceMatrix"]}
{"id": "C207", "title": "PCA catches the largest possible variance", "statement": "No other orthonormal directions, as many as there are outputs, have a larger sum of variances on the training data; and no approximation of the training data by combinations of as many orthonormal directions around the mean has a smaller squared error than inverse(execute(x)).", "quantifier": "all data, all competing directions and coefficients", "why_tests_cant": "all competitors", "anchors": ["mdp/nodes/pca_nodes.py: PCANode._stop_training, _execute, _inverse"]}
{"id": "C208", "title": "inverse of PCA and whitening is the best approximation", "statement": "inverse(execute(x, n)) is the point nearest to x among the points mean plus combination of the first n components; with all components it is x; execute(inverse(y)) is y.", "quantifier": "all data, points, numbers of components", "why_tests_cant": "all points", "anchors": ["mdp/nodes/pca_nodes.py: PCANode._execute, _inverse", "mdp/nodes/pca_nodes.py: WhiteningNode.get_recmatrix"]}
{"id": "C209", "title": "output_dim as a fraction of variance", "statement": "With output_dim a fraction q the node keeps the smallest number of components whose variances add up to at least q times the total variance; output_dim is this number, explained_variance the fraction reached.", "quantifier": "all data, all q in (0,1]", "why_tests_cant": "all spectra", "anchors": ["mdp/nodes/pca_nodes.py: PCANode._set_output_dim, _stop_training"]}
{"id": "C210", "title": "reduce keeps exactly the components above the thresholds", "statement": "With reduce=True exactly the components are kept whose variance is above var_abs, above var_rel relative to the first and above var_part relative to the total variance; output_dim is their number.", "quantifier": "all data, thresholds", "why_tests_cant": "all spectra", "anchors": ["mdp/nodes/pca_nodes.py: PCANode._stop_training"]}
{"id": "C211", "title": "output_dim is the number of outputs", "statement": "After training, execute returns output_dim columns.", "quantifier": "all integers output_dim, with eigh and svd", "why_tests_cant": "output_dim above the input dimension", "anchors": ["mdp/nodes/pca_nodes.py: PCANode._adjust_output_dim, _stop_training", "mdp/utils/_symeig.py: wrap_eigh", "mdp/utils/routines.py: nongeneral_svd"]}
{"id": "C212", "title": "A failed stop_training can be repeated", "statement": "If stop_training of a PCANode raises (for instance no eigenvalues above var_abs, and the message recommends other settings), the node still has its data: stop_training and train can be called again.", "quantifier": "all data and settings", "why_tests_cant": "state after the exception", "anchors": ["mdp/nodes/pca_nodes.py: PCANode._stop_training"]}
{"id": "C213", "title": "Whitening", "statement": "On the training data the outputs of a WhiteningNode have mean zero and the identity matrix as covariance.", "quantifier": "all data with positive kept variances", "why_tests_cant": "all data", "anchors": ["mdp/nodes/pca_nodes.py: WhiteningNode._stop_training"]}
{"id": "C214", "title": "inverse with n components", "statement": "inverse(y, n) projects y back using the first n components (docstring).", "quantifier": "all trained nodes, y, n", "why_tests_cant": "n different from the number of columns", "anchors": ["mdp/nodes/pca_nodes.py: PCANode._inverse"]}
{"id": "C215", "title": "The generalised eigenvalue problem", "statement": "For positive definite B, _symeig_fake(A, B) returns ascending w and Z with Z^T A Z = diag(w) and Z^T B Z = 1, as many as the dimension, or those in the range.", "quantifier": "all symmetric A, positive definite B, ranges; any routine eigh that returns an eigensystem", "why_tests_cant": "all matrices", "anchors": ["mdp/utils/_symeig.py: _symeig_fake"]}
{"id": "C216", "title": "Semidefinite problems are solved on the rank", "statement": "The pca and svd variants for semidefinite B return ascending d and U with U^T A U = diag(d) and U^T B U = 1; the number of columns plus rank_deficit is the dimension; rank_deficit is nonzero only if B has a deficit.", "quantifier": "all symmetric positive semidefinite A and B", "why_tests_cant": "all matrices, all ranks", "anchors": ["mdp/utils/symeig_semidefinite.py: symeig_semidefinite_pca, symeig_semidefinite_svd, _find_blank_data_idx"]}
{"id": "C217", "title": "The solutions of the semidefinite problem are minimal", "statement": "No other B-orthonormal vectors are more in number, or have a smaller sum of values of A, than the vectors returned by the pca and svd variants.", "quantifier": "all matrices, all competing vectors", "why_tests_cant": "all competitors", "anchors": ["mdp/utils/symeig_semidefinite.py: symeig_semidefinite_pca, symeig_semidefinite_svd"]}
{"id": "C218", "title": "Blank inputs are found", "statement": "_find_blank_data_idx returns None if no input is blank (all its entries in B below the threshold), otherwise the indices of the inputs that are not blank.", "quantifier": "all symmetric B, all dimensions and thresholds", "why_tests_cant": "all patterns of blank inputs", "anchors": ["mdp/utils/symeig_semidefinite.py: _find_blank_data_idx"]}
{"id": "C219", "title": "Nothing left raises a SymeigException", "statement": "If no input is left, the semidefinite solver raises SymeigException, which SFANode turns into a NodeException.", "quantifier": "all matrices", "why_tests_cant": "exception type", "anchors": ["mdp/utils/symeig_semidefinite.py: symeig_semidefinite_pca"]}
{"id": "C220", "title": "Slow features are white", "statement": "On the samples used for the covariance matrix the outputs of a trained SFANode have mean zero, variance one and are uncorrelated.", "quantifier": "all data, chunks, output dimensions, values of include_last_sample; any solver that solves the generalised eigenvalue problem", "why_tests_cant": "all data", "anchors": ["mdp/nodes/sfa_nodes.py: SFANode._train, _stop_training, _execute", "mdp/utils/covariance.py: CovarianceMatrix"]}
{"id": "C221", "title": "d are the delta values", "statement": "d[k] is the delta value of output k, the mean of its squared time derivative on the training data (docstring of get_eta_values); d is ascending, and the derivatives of different outputs are uncorrelated.", "quantifier": "all data, chunks", "why_tests_cant": "all data", "anchors": ["mdp/nodes/sfa_nodes.py: SFANode._stop_training, time_derivative, get_eta_values"]}
{"id": "C222", "title": "Slow features are the slowest", "statement": "Any linear functions of the input with variance one and without correlation on the training samples have a sum of squared time derivatives not below that of as many outputs of the node; and there are not more of them than outputs if output_dim is not set.", "quantifier": "all data, all competing linear functions", "why_tests_cant": "all competitors", "anchors": ["mdp/nodes/sfa_nodes.py: SFANode._stop_training, _execute"]}
{"id": "C223", "title": "Connected chunks", "statement": "With include_last_sample=False, training on connected chunks sees all derivatives and all points but the last, and gives exactly the node trained on the whole sequence; the order of the chunks does not matter.", "quantifier": "all sequences, all ways to cut them", "why_tests_cant": "all ways to cut", "anchors": ["mdp/nodes/sfa_nodes.py: SFANode.__init__, _train, time_derivative"]}
{"id": "C224", "title": "output_dim of SFA", "statement": "After training output_dim is the value set, or the input dimension if none was set or the value was larger (comment: otherwise, keep all output components).", "quantifier": "all output_dim, data", "why_tests_cant": "output_dim above the input dimension", "anchors": ["mdp/nodes/sfa_nodes.py: SFANode._set_range", "mdp/signal_node.py: Node.set_output_dim"]}
{"id": "C225", "title": "stop_training of SFA can be repeated", "statement": "After stop_training failed, another rank_deficit_method or a smaller output_dim can be set, or more data presented, and stop_training called again, with the result of a node that was made so in the beginning.", "quantifier": "all data, methods", "why_tests_cant": "state after the exception", "anchors": ["mdp/nodes/sfa_nodes.py: SFANode._stop_training, set_rank_deficit_method, _set_range", "mdp/signal_node.py: Node.set_output_dim"]}
{"id": "C226", "title": "The first n slow features", "statement": "execute(x, n) returns the first n columns of execute(x).", "quantifier": "all nodes, inputs, nonnegative integers n", "why_tests_cant": "n = 0", "anchors": ["mdp/nodes/sfa_nodes.py: SFANode._execute"]}
{"id": "C227", "title": "inverse of SFA", "statement": "execute(inverse(y)) is y; if there are as many outputs as inputs, inverse(execute(x)) is x.", "quantifier": "all data, y, x; any pseudoinverse", "why_tests_cant": "all points", "anchors": ["mdp/nodes/sfa_nodes.py: SFANode._execute, _inverse"]}
{"id": "C228", "title": "Rank deficit methods keep all features", "statement": "With a rank deficit method, data without redundancy gives as many features as inputs, output_dim is the number of outputs, and inverse accepts the output of execute.", "quantifier": "all data", "why_tests_cant": "uncorrelated inputs", "anchors": ["mdp/nodes/sfa_nodes.py: SFANode._stop_training, _inverse", "mdp/utils/symeig_semidefinite.py: _find_blank_data_idx"]}
{"id": "C229", "title": "Class means of FDA", "statement": "After the first training phase means[l] is the mean of all observations with label l and tlens[l] their number (positive); a label that did not occur has no entry.", "quantifier": "all sequences of train calls, single labels and lists of labels, all data", "why_tests_cant": "chunks that mix classes", "anchors": ["mdp/nodes/fda_nodes.py: FDANode._train_means, _update_means, _stop_means"]}
{"id": "C230", "title": "Outputs of FDA are white", "statement": "On the data of the second phase the outputs of a trained FDANode have mean zero, variance one and are uncorrelated.", "quantifier": "all data, labels, chunks, output dimensions up to input_dim; any solver that solves the generalised eigenvalue problem", "why_tests_cant": "all data", "anchors": ["mdp/nodes/fda_nodes.py: FDANode._train_fda, _stop_fda, _execute"]}
{"id": "C231", "title": "Scatter within the classes", "statement": "With the same labelled data in both phases, different outputs are uncorrelated within the classes, and the scatter within the classes of the outputs is ascending; the scatter within the classes of any function is between zero and its total scatter.", "quantifier": "all data, labels, chunks, functions", "why_tests_cant": "all data", "anchors": ["mdp/nodes/fda_nodes.py: FDANode._update_SW, _stop_fda, _execute"]}
{"id": "C232", "title": "FDA separates the classes best", "statement": "Any linear functions of the input with variance one and without correlation on the data have a sum of scatters within the classes not below that of as many outputs of the node.", "quantifier": "all data, labels, all competing linear functions", "why_tests_cant": "all competitors", "anchors": ["mdp/nodes/fda_nodes.py: FDANode._stop_fda, _execute"]}
{"id": "C233", "title": "Order, chunks and form of the labels do not matter", "statement": "Training with the same labelled observations in any order, cut into any chunks, with single labels or lists of labels, and with any order of iteration through the sets of labels, gives the same node.", "quantifier": "all data and arrangements", "why_tests_cant": "all arrangements", "anchors": ["mdp/nodes/fda_nodes.py: FDANode._train_means, _train_fda"]}
{"id": "C234", "title": "Unknown labels are rejected", "statement": "In the second phase, a call of train with a label that did not occur in the first phase raises an exception and leaves the node unchanged; a call with known labels succeeds.", "quantifier": "all data and labels", "why_tests_cant": "state after the exception", "anchors": ["mdp/nodes/fda_nodes.py: FDANode._train_fda, _update_SW"]}
{"id": "C235", "title": "stop_training of FDA can be repeated", "statement": "After the solver raised SymeigException in stop_training, more data can be presented and stop_training called again.", "quantifier": "all data, solvers", "why_tests_cant": "state after the exception", "anchors": ["mdp/nodes/fda_nodes.py: FDANode._stop_fda"]}
{"id": "C236", "title": "execute with n and inverse of FDA", "statement": "execute(x, n) uses the first n components if n is positive, otherwise all (docstring); execute(inverse(y)) is y; inverse accepts the output of execute.", "quantifier": "all nodes, x, y, n", "why_tests_cant": "negative n, output_dim above input_dim", "anchors": ["mdp/nodes/fda_nodes.py: FDANode._execute, _inverse, _stop_fda", "mdp/signal_node.py: Node.inverse"]}
{"id": "C237", "title": "The quadratic form of an output of SFA2", "statement": "get_quadratic_form(nr) of a trained SFA2Node returns a form with a symmetric matrix whose value at x is column nr of execute(x); negative nr count from the end, others raise IndexError.", "quantifier": "all data, trained nodes, input dimensions, nr, x", "why_tests_cant": "the order of the monomials in every dimension", "anchors": ["mdp/nodes/sfa_nodes.py: SFA2Node.get_quadratic_form, _execute", "mdp/utils/quad_forms.py: QuadraticForm.__init__, apply", "mdp/nodes/expansion_nodes.py: PolynomialExpansionNode._execute"]}
{"id": "C238", "title": "SFA2 finds the slowest quadratic functions", "statement": "The outputs of a trained SFA2Node have mean zero, variance one and are uncorrelated on the training samples; any quadratic forms with variance one and without correlation have a sum of squared time derivatives not below that of as many outputs.", "quantifier": "all data, chunks, input dimensions, all competing quadratic forms with linear and constant part", "why_tests_cant": "all competitors", "anchors": ["mdp/nodes/sfa_nodes.py: SFA2Node._train, _stop_training, _execute", "mdp/nodes/expansion_nodes.py: QuadraticExpansionNode"]}
{"id": "C239", "title": "output_dim of SFA2", "statement": "After training, execute of an SFA2Node returns output_dim columns.", "quantifier": "all data, output_dim", "why_tests_cant": "output_dim above the dimension of the expansion", "anchors": ["mdp/nodes/sfa_nodes.py: SFA2Node._set_range, _stop_training"]}
{"id": "C240", "title": "Value of a quadratic form", "statement": "apply(x) is 1/2 x^T H x + f^T x + c (f and c default to zero); the constructor raises QuadraticFormException unless H is symmetric up to the tolerance.", "quantifier": "all dimensions, H, f, c, x, tolerances", "why_tests_cant": "all values", "anchors": ["mdp/utils/quad_forms.py: QuadraticForm.__init__, apply"]}
{"id": "C241", "title": "Extrema of a form without linear part", "statement": "Without linear term get_extrema(norm) returns two vectors with norm norm which are the maximum and the minimum of the form among all vectors of this norm.", "quantifier": "all symmetric H, dimensions, norms; any routine eig with orthonormal eigenvectors", "why_tests_cant": "all competing vectors", "anchors": ["mdp/utils/quad_forms.py: QuadraticForm.get_extrema, _eig_sort"]}
{"id": "C242", "title": "Extrema of an inhomogeneous form", "statement": "The vectors returned by get_extrema are the maximum and minimum of the form among all vectors of the same norm as they have.", "quantifier": "all symmetric H, f, norms, tolerances, dimensions", "why_tests_cant": "all competing vectors", "anchors": ["mdp/utils/quad_forms.py: QuadraticForm.get_extrema, _maximize"]}
{"id": "C243", "title": "Norm of the extrema", "statement": "The vectors returned by get_extrema(norm, tol) have norm norm up to the tolerance and are the extrema of the form on this sphere (docstring: find the input vectors xmax and xmin with norm norm).", "quantifier": "all symmetric H, f, norms, tolerances", "why_tests_cant": "all forms", "anchors": ["mdp/utils/quad_forms.py: QuadraticForm.get_extrema, _maximize"]}
{"id": "C244", "title": "get_extrema returns", "statement": "get_extrema(norm, tol) ends without an exception for every form, positive norm and tolerance.", "quantifier": "all symmetric H, f, positive norms and tolerances", "why_tests_cant": "termination of the bisection", "anchors": ["mdp/utils/quad_forms.py: QuadraticForm.get_extrema, _maximize"]}
{"id": "C245", "title": "Invariances", "statement": "get_invariances(xopt) returns n-1 orthonormal directions which are orthogonal to xopt; nu[k] is the second derivative of the form along the sphere in direction k, sorted by absolute value.", "quantifier": "all symmetric H, f, points, dimensions; any QR decomposition", "why_tests_cant": "all points", "anchors": ["mdp/utils/quad_forms.py: QuadraticForm.get_invariances"]}
{"id": "C246", "title": "Meaning of nu", "statement": "At a stationary point x on the sphere, moving on the great circle in direction w by the angle with cosine c and sine s keeps the norm and changes the value by 1/2 (s r)^2 nu up to terms of third order.", "quantifier": "all symmetric H, stationary points, directions, angles", "why_tests_cant": "all angles", "anchors": ["mdp/utils/quad_forms.py: QuadraticForm.get_invariances"]}
{"id": "C247", "title": "The invariances at an extremum", "statement": "At the maximum returned by get_extrema all nu are nonpositive, at the minimum all nu are nonnegative.", "quantifier": "all forms, norms, tolerances", "why_tests_cant": "all forms", "anchors": ["mdp/utils/quad_forms.py: QuadraticForm.get_extrema, get_invariances"]}
{"id": "C248", "title": "Connected chunks with time increments", "statement": "Training a VartimeSFANode with time_dep on connected chunks, with any mixture of arrays, constants and no increments, gives exactly the node trained on the whole sequence with all increments.", "quantifier": "all sequences, ways to cut them, increments", "why_tests_cant": "all ways to cut", "anchors": ["mdp/nodes/sfa_nodes.py: VartimeSFANode._train, time_derivative", "mdp/utils/covariance.py: VartimeCovarianceMatrix.update, fix"]}
{"id": "C249", "title": "Separate chunks with time increments", "statement": "With time_dep=False the order of the chunks does not matter, and the moments are the averages of those of the chunks, weighted with their lengths of time.", "quantifier": "all data, increments, orders", "why_tests_cant": "all orders", "anchors": ["mdp/nodes/sfa_nodes.py: VartimeSFANode._train, time_derivative", "mdp/utils/covariance.py: VartimeCovarianceMatrix.update"]}
{"id": "C250", "title": "Slow features of unevenly sampled data", "statement": "By the trapezoid rule over the recorded time, the outputs of a trained VartimeSFANode have mean zero, variance one and no correlation; d[k] is the mean of the squared time derivative of output k, ascending; no other such linear functions have a smaller sum of mean squared derivatives.", "quantifier": "all data, increments, mixtures of connected and separate chunks, output dimensions, competing functions; any solver of the generalised eigenvalue problem", "why_tests_cant": "all data and competitors", "anchors": ["mdp/nodes/sfa_nodes.py: VartimeSFANode._train, time_derivative; SFANode._stop_training, _execute", "mdp/utils/covariance.py: VartimeCovarianceMatrix"]}
{"id": "C251", "title": "The unit of time", "statement": "Multiplying all time increments by a positive factor a leaves the outputs unchanged, divides d by a*a and multiplies tlen and dtlen by a.", "quantifier": "all data, increments, factors; solvers insensitive to a factor of the first matrix", "why_tests_cant": "all factors", "anchors": ["mdp/nodes/sfa_nodes.py: VartimeSFANode._train, time_derivative"]}
{"id": "C252", "title": "Rejected calls of train leave no trace", "statement": "A call of train that raises because of its arguments (length or sign of the increments, too few rows) does not change what was learned: the result is that of the accepted calls alone.", "quantifier": "all sequences of calls", "why_tests_cant": "state after the exception", "anchors": ["mdp/nodes/sfa_nodes.py: VartimeSFANode._train, _check_train_args, time_derivative", "mdp/utils/covariance.py: VartimeCovarianceMatrix.update"]}
{"id": "C253", "title": "The first of len(x) increments is disregarded", "statement": "In a first call, or with time_dep=False, if len(x) increments are supplied the first is disregarded (docstring of _train); time_derivative only computes.", "quantifier": "all data, increments", "why_tests_cant": "uninitialised memory", "anchors": ["mdp/nodes/sfa_nodes.py: VartimeSFANode._train, time_derivative", "mdp/utils/covariance.py: VartimeCovarianceMatrix.update"]}
{"id": "C254", "title": "VartimeSFANode generalises SFANode", "statement": "With constant time increments a VartimeSFANode computes the same as an SFANode (docstring: a generalization of the SFANode that allows non-constant time increments).", "quantifier": "all data", "why_tests_cant": "all data", "anchors": ["mdp/nodes/sfa_nodes.py: VartimeSFANode"]}
{"id": "C255", "title": "Construction of an OnlineLayer", "statement": "OnlineLayer (also the clone and same-input forms) accepts its nodes iff Layer does and every node that is in training is an OnlineNode, otherwise it raises TypeError without touching the nodes; the layer is in training iff a node is, and its training type is batch iff an OnlineNode has this type, else unset.", "quantifier": "all lists of nodes (also repeated ones), states, options", "why_tests_cant": "all nodes", "anchors": ["mdp/hinet/layer_online.py: OnlineLayer.__init__, _check_compatibility, _set_training_type_from_nodes", "mdp/hinet/layer.py: Layer.__init__, SameInputLayer.__init__"]}
{"id": "C256", "title": "Training type of an OnlineLayer", "statement": "set_training_type succeeds as for other OnlineNodes, unless a node prescribes another type (message: it is inferred from the nodes); the default is incremental.", "quantifier": "all histories of calls", "why_tests_cant": "all histories", "anchors": ["mdp/hinet/layer_online.py: OnlineLayer.set_training_type", "mdp/signal_node_online.py: OnlineNode._check_input"]}
{"id": "C257", "title": "Incremental training of an OnlineLayer", "statement": "Trained incrementally, every node of an OnlineLayer sees its columns of all rows, one row at a time, as if it were trained alone, and train_iteration counts the rows; how the data are cut into chunks does not matter (neither for the state nor for an exception).", "quantifier": "all nodes, dimensions, data, ways to cut", "why_tests_cant": "all data", "anchors": ["mdp/hinet/layer_online.py: OnlineLayer._get_train_seq", "mdp/signal_node_online.py: OnlineNode.train", "mdp/hinet/layer.py: Layer._train"]}
{"id": "C258", "title": "Ending the training of an OnlineLayer", "statement": "Only stop_training ends the training of an OnlineLayer; one call ends that of all its nodes, whatever the number of their phases, and leaves the nodes that were done before unchanged; later train and stop_training raise.", "quantifier": "all histories of calls, nodes, kinds of layer", "why_tests_cant": "all histories", "anchors": ["mdp/signal_node_online.py: OnlineNode.stop_training, _pre_execution_checks", "mdp/hinet/layer.py: Layer._stop_training, CloneLayer._stop_training"]}
{"id": "C259", "title": "Executing an untrained OnlineLayer", "statement": "Executing an OnlineLayer that has not been trained is training it with the data and then executing it.", "quantifier": "all nodes, data, kinds of layer", "why_tests_cant": "all nodes", "anchors": ["mdp/signal_node_online.py: OnlineNode._pre_execution_checks", "mdp/hinet/layer.py: Layer._pre_execution_checks"]}
{"id": "C260", "title": "Random number generators in an OnlineLayer", "statement": "The generator given to an OnlineLayer is the one of all its OnlineNodes; without one, the nodes keep the generators they have.", "quantifier": "all nodes and generators", "why_tests_cant": "all nodes", "anchors": ["mdp/hinet/layer_online.py: OnlineLayer._set_numx_rng", "mdp/signal_node_online.py: OnlineNode._check_input"]}
{"id": "C261", "title": "CloneOnlineLayer and OnlineLayer([node]*n)", "statement": "CloneOnlineLayer(node, n) is trained, stopped and executed exactly like OnlineLayer([node]*n); in particular the latter has no problem when the training is closed (against the docstring).", "quantifier": "all n, nodes, data, states", "why_tests_cant": "all nodes", "anchors": ["mdp/hinet/layer_online.py: CloneOnlineLayer", "mdp/hinet/layer.py: CloneLayer._stop_training, _execute"]}
{"id": "C262", "title": "The training graph is the union of the graphs of the calls", "statement": "After any sequence of calls of train of a GSFANode, with any train modes, the covariance matrix, mean and derivative matrix are those of the weighted graph which is the union of the graphs of all calls; the order of the calls does not matter.", "quantifier": "all sequences of calls, modes (unlabeled, regular, clustered, serial, mixed, mirrored windows, graph, classification, serial_regression), data, weights", "why_tests_cant": "all graphs", "anchors": ["mdp/nodes/gsfa_nodes.py: GSFANode._train", "mdp/nodes/gsfa_nodes.py: CovDCovMatrix.add_samples, add_diffs, fix"]}
{"id": "C263", "title": "Groups are fully connected", "statement": "Mode clustered adds every sample with weight w and connects all pairs of samples of the same group with weight w divided by the group size (or the size minus one without self-loops), whether the group sizes are given as one integer or as a list.", "quantifier": "all groups, sizes, weights, earlier data", "why_tests_cant": "all groups", "anchors": ["mdp/nodes/gsfa_nodes.py: CovDCovMatrix.update_clustered, update_clustered_homogeneous_block_sizes"]}
{"id": "C264", "title": "Consecutive groups are connected", "statement": "Mode serial connects every sample with every sample of the next group with the same weight; samples of the first and last group have half the weight of the others.", "quantifier": "all numbers and sizes of groups, earlier data", "why_tests_cant": "one group", "anchors": ["mdp/nodes/gsfa_nodes.py: CovDCovMatrix.update_serial"]}
{"id": "C265", "title": "The mixed graph is uniform", "statement": "In mode mixed all samples have the same weight, edges are those within groups and those between consecutive groups.", "quantifier": "all numbers and sizes of groups", "why_tests_cant": "all groups", "anchors": ["mdp/nodes/gsfa_nodes.py: GSFANode._train"]}
{"id": "C266", "title": "Regular GSFA is SFA", "statement": "Mode regular uses the covariance matrix and derivative matrix of SFANode on the same data up to a factor each, thus the same directions are the solutions.", "quantifier": "all data and chunks", "why_tests_cant": "all data", "anchors": ["mdp/nodes/gsfa_nodes.py: CovDCovMatrix.update_regular, fix", "mdp/nodes/sfa_nodes.py: SFANode"]}
{"id": "C267", "title": "The fast mirrored window computes the same as the slow one", "statement": "update_mirroring_sliding_window accumulates exactly what update_slow_mirroring_sliding_window does: every sample once, and the edges of the window over the data mirrored at both ends.", "quantifier": "all widths, lengths above twice the width, weights, data", "why_tests_cant": "all lengths", "anchors": ["mdp/nodes/gsfa_nodes.py: CovDCovMatrix.update_mirroring_sliding_window, update_slow_mirroring_sliding_window, update_slow_truncating_sliding_window"]}
{"id": "C268", "title": "The fast window computes the same as the slow one", "statement": "update_fast_sliding_window accumulates the same graph as update_sliding_window (up to the factor two of counting each pair twice), whenever it accepts the data.", "quantifier": "all widths, lengths, weights, data", "why_tests_cant": "short inputs", "anchors": ["mdp/nodes/gsfa_nodes.py: CovDCovMatrix.update_fast_sliding_window, update_sliding_window"]}
{"id": "C269", "title": "The mean of the window graphs", "statement": "The mean of constant data after training with a sliding window is this constant, since num_samples is the sum of the node weights.", "quantifier": "all widths, lengths, weights", "why_tests_cant": "node weights at the ends", "anchors": ["mdp/nodes/gsfa_nodes.py: CovDCovMatrix.update_fast_sliding_window, update_sliding_window, fix"]}
{"id": "C270", "title": "Classification connects samples with the same label", "statement": "Mode classification connects exactly the pairs of samples with equal labels, with weight w over the size of the class, in whatever order the samples come.", "quantifier": "all labels, orders, data, any sorting", "why_tests_cant": "all orders", "anchors": ["mdp/nodes/gsfa_nodes.py: GSFANode._train", "mdp/nodes/gsfa_nodes.py: CovDCovMatrix.update_clustered"]}
{"id": "C271", "title": "A graph as an array or as a dictionary", "statement": "update_graph gives the same matrices whether the edge weights are an array or a dictionary with the same weights, and the same as update_graph_old.", "quantifier": "all data, node and edge weights", "why_tests_cant": "node weights that are not the degrees", "anchors": ["mdp/nodes/gsfa_nodes.py: CovDCovMatrix.update_graph, update_graph_old"]}
{"id": "C272", "title": "DualSerial uses two graphs", "statement": "Mode DualSerial trains with the serial graph of the samples and with the dual serial graph.", "quantifier": "all data, sizes", "why_tests_cant": "all data", "anchors": ["mdp/nodes/gsfa_nodes.py: GSFANode._train"]}
{"id": "C273", "title": "GSFA solves its optimisation problem", "statement": "On the training graph the outputs of a GSFANode have weighted mean zero, weighted variance one and no correlation; d is ascending and is the weighted mean of the squared output differences over the edges; any other such linear functions have a sum of these not smaller.", "quantifier": "all graphs with nonnegative weights, all sequences of calls, competing linear functions; any solver of the generalised eigenvalue problem", "why_tests_cant": "all competitors", "anchors": ["mdp/nodes/gsfa_nodes.py: GSFANode._stop_training, _execute"]}
{"id": "C274", "title": "graph_delta_values gives d", "statement": "graph_delta_values of the outputs of a GSFANode on its training graph are the values d of the node.", "quantifier": "all graphs given as dictionaries, node weights, data", "why_tests_cant": "all graphs", "anchors": ["mdp/nodes/gsfa_nodes.py: graph_delta_values", "mdp/nodes/gsfa_nodes.py: GSFANode._stop_training"]}
{"id": "C275", "title": "verbose only prints", "statement": "stop_training with verbose=True does the same as without.", "quantifier": "all nodes and data", "why_tests_cant": "verbose runs", "anchors": ["mdp/nodes/gsfa_nodes.py: GSFANode._stop_training"]}
{"id": "C276", "title": "smart_unlabeled2 is a graph with nonnegative weights", "statement": "Mode smart_unlabeled2 adds unlabeled samples by connecting them to the labeled ones and among themselves; all node weights stay nonnegative, so that the covariance matrix is one.", "quantifier": "all labeled graphs, unlabeled data", "why_tests_cant": "number of unlabeled samples", "anchors": ["mdp/nodes/gsfa_nodes.py: GSFANode._train"]}
{"id": "C277", "title": "The mean after smart_unlabeled3", "statement": "The mean of constant data after training with labeled data and mode smart_unlabeled3 is this constant.", "quantifier": "all labeled graphs, unlabeled data", "why_tests_cant": "aliasing of arrays", "anchors": ["mdp/nodes/gsfa_nodes.py: GSFANode._train"]}
{"id": "C278", "title": "stop_training of GSFA can be repeated", "statement": "If stop_training of a GSFANode raises, nothing that was learned is lost: training goes on as if it had not been called. Unlabeled samples alone are not enough for stop_training.", "quantifier": "all nodes, data, solvers", "why_tests_cant": "state after the exception", "anchors": ["mdp/nodes/gsfa_nodes.py: GSFANode._stop_training", "mdp/nodes/gsfa_nodes.py: CovDCovMatrix.fix"]}
{"id": "C279", "title": "block_size holds for all modes of the call", "statement": "In a call of train with a list of modes, the block_size of the call is used by every mode that needs one.", "quantifier": "all lists of modes", "why_tests_cant": "lists with serial_regression", "anchors": ["mdp/nodes/gsfa_nodes.py: GSFANode._train"]}
{"id": "C280", "title": "Block sizes that do not fit", "statement": "Block sizes that do not fit the number of samples raise ValueError and leave the node unchanged.", "quantifier": "all sizes and data", "why_tests_cant": "exception type", "anchors": ["mdp/nodes/gsfa_nodes.py: CovDCovMatrix.update_clustered, update_serial"]}
{"id": "C281", "title": "Arguments of a default fork", "statement": "_default_fork constructs the fork with, for every argument of __init__, the attribute of this name, else the one with an underscore in front, else its default; if an argument without default value is not found it raises NotForkableParallelException.", "quantifier": "all signatures and attributes", "why_tests_cant": "all signatures", "anchors": ["mdp/parallel/parallelnodes.py: ParallelExtensionNode._default_fork"]}
{"id": "C282", "title": "A fork has the arguments of the node", "statement": "A fork of a node is a new node constructed with the same arguments (documented purpose of _default_fork), however the node has been trained.", "quantifier": "all arguments, data", "why_tests_cant": "arguments that are not attributes", "anchors": ["mdp/parallel/parallelnodes.py: ParallelPCANode._fork, ParallelSFANode._fork, ParallelFDANode._fork"]}
{"id": "C283", "title": "Parallel training of PCA", "statement": "Training a PCANode (WhiteningNode) with forks, forks of forks and so on, and joining them, leaves the node in the same state as sequential training with the same chunks in any order.", "quantifier": "all trees of forks, ways to distribute the data, orders, arguments of the node", "why_tests_cant": "all trees", "anchors": ["mdp/parallel/parallelnodes.py: ParallelPCANode"]}
{"id": "C284", "title": "Parallel training of SFA", "statement": "Training an SFANode with forks, forks of forks and so on, and joining them, leaves the node in the same state as sequential training with the same chunks in any order.", "quantifier": "all trees of forks, data, orders, include_last_sample arguments", "why_tests_cant": "all trees", "anchors": ["mdp/parallel/parallelnodes.py: ParallelSFANode"]}
{"id": "C285", "title": "Parallel training of NIPALS", "statement": "A NIPALSNode, which is a PCANode and has the same fork and join, uses the data of all forks.", "quantifier": "all trees of forks, data", "why_tests_cant": "all trees", "anchors": ["mdp/parallel/parallelnodes.py: ParallelPCANode", "mdp/nodes/nipals.py: NIPALSNode", "mdp/signal_node.py: Cumulator"]}
{"id": "C286", "title": "Parallel training of VartimeSFA", "statement": "Parallel training of a VartimeSFANode is sequential training with the same calls.", "quantifier": "all trees of forks, data, increments", "why_tests_cant": "connected chunks", "anchors": ["mdp/parallel/parallelnodes.py: ParallelSFANode", "mdp/nodes/sfa_nodes.py: VartimeSFANode"]}
{"id": "C287", "title": "Parallel training of FDA", "statement": "Parallel training of an FDANode in both phases leaves it in the same state as sequential training with the same chunks in any order.", "quantifier": "all trees of forks for each phase, data, labels, orders", "why_tests_cant": "all trees", "anchors": ["mdp/parallel/parallelnodes.py: ParallelFDANode"]}
{"id": "C288", "title": "Parallel training of histograms", "statement": "Parallel training of a HistogramNode gives the data in the order of the joins; the bounds of an AdaptiveCutoffNode do not depend on trees and orders.", "quantifier": "all trees of forks, data, orders", "why_tests_cant": "all trees", "anchors": ["mdp/parallel/parallelnodes.py: ParallelHistogramNode", "mdp/nodes/misc_nodes.py: AdaptiveCutoffNode._stop_training"]}
{"id": "C289", "title": "Parallel training of the Gaussian classifier", "statement": "Parallel training of a GaussianClassifier leaves it in the same state (also the order of the labels) as sequential training with the chunks in the order of the joins.", "quantifier": "all trees of forks, data, labels", "why_tests_cant": "all trees", "anchors": ["mdp/parallel/parallelclassifiers.py: ParallelGaussianClassifier"]}
{"id": "C290", "title": "Parallel training of the nearest-mean classifier", "statement": "Parallel training of a NearestMeanClassifier leaves it in the same state (also the order of the labels) as sequential training.", "quantifier": "all trees of forks, data, labels", "why_tests_cant": "all trees", "anchors": ["mdp/parallel/parallelclassifiers.py: ParallelNearestMeanClassifier"]}
{"id": "C291", "title": "Parallel training of the k-nearest-neighbour classifier", "statement": "Parallel training of a KNNClassifier leaves it in the same state (also the order of samples and labels) as sequential training.", "quantifier": "all trees of forks, data, labels", "why_tests_cant": "all trees", "anchors": ["mdp/parallel/parallelclassifiers.py: ParallelKNNClassifier"]}
{"id": "C292", "title": "A fork without data", "statement": "Joining a fork that was not trained changes nothing and raises no exception.", "quantifier": "all nodes", "why_tests_cant": "forks without data", "anchors": ["mdp/parallel/parallelnodes.py: ParallelExtensionNode._join_covariance, ParallelPCANode._join, ParallelSFANode._join, ParallelFDANode._join"]}
{"id": "C293", "title": "Joining does not change the fork", "statement": "join changes only the node, not the joined fork; n forks with different data give their sum.", "quantifier": "all numbers of forks and data", "why_tests_cant": "references", "anchors": ["mdp/parallel/parallelnodes.py: ParallelPCANode._join, _join_covariance"]}
{"id": "C294", "title": "Parallel training of containers", "statement": "If parallel training of nodes gives the same as sequential training, so it does for a Layer of them (with trained nodes in between), a CloneLayer and a FlowNode.", "quantifier": "all containers, nodes, trees of forks, data", "why_tests_cant": "all containers", "anchors": ["mdp/parallel/parallelhinet.py: ParallelLayer, ParallelCloneLayer, ParallelFlowNode"]}
{"id": "C295", "title": "Containers with nodes that need a fork for execution", "statement": "If a container reports use_execute_fork then its fork has forks of all its nodes that report it.", "quantifier": "all containers", "why_tests_cant": "nodes with use_execute_fork", "anchors": ["mdp/parallel/parallelhinet.py: ParallelLayer._fork, _join, ParallelFlowNode._fork, use_execute_fork"]}
{"id": "C296", "title": "Attributes joined for all nodes", "statement": "join takes over dtype, input_dim and output_dim of the fork iff they are unset, and the node counts as started iff it or the fork was.", "quantifier": "all nodes", "why_tests_cant": "all states", "anchors": ["mdp/parallel/parallelnodes.py: ParallelExtensionNode.join"]}
{"id": "C297", "title": "Amnesic weights", "statement": "The two weights of an update of CCIPCANode add up to one; below n1 samples they are those of the plain average, and with the default parameters both are positive at every iteration.", "quantifier": "all iterations, all parameters with n1, n2 > c+1, c >= 0, m >= 1", "why_tests_cant": "all iterations", "anchors": ["mdp/nodes/pca_nodes_online.py: CCIPCANode._amnesic, _set_amn_params"]}
{"id": "C298", "title": "CCIPCA keeps its vectors normalized", "statement": "After training with any nonempty chunks every eigenvector of a CCIPCANode is a unit vector (of a CCIPCAWhiteningNode: a unit vector over the square root of its eigenvalue), every eigenvalue is positive, and the number of vectors is the output dimension; the way the samples are split into chunks does not matter.", "quantifier": "all samples, chunks, dimensions, amnesic parameters with positive weights, start vectors other than zero", "why_tests_cant": "all data", "anchors": ["mdp/nodes/pca_nodes_online.py: CCIPCANode._train, CCIPCAWhiteningNode._train", "mdp/signal_node_online.py: OnlineNode.train"]}
{"id": "C299", "title": "One more sample", "statement": "With one more sample the scaled vector of component k becomes w1 times the old one plus w2 times the component of the residual along the old direction times the residual; eigenvalue and eigenvector are its length and direction; the residual is the sample minus its projections on the new directions of the components before.", "quantifier": "all states reached by training, samples", "why_tests_cant": "all states", "anchors": ["mdp/nodes/pca_nodes_online.py: CCIPCANode._train"]}
{"id": "C300", "title": "What the components take", "statement": "The sample is the sum of what the components took and the last residual, and every residual is orthogonal to the vector it was last reduced by.", "quantifier": "all samples, unit vectors, dimensions", "why_tests_cant": "all vectors", "anchors": ["mdp/nodes/pca_nodes_online.py: CCIPCANode._train"]}
{"id": "C301", "title": "The first vector as an average", "statement": "While the weights are those of an average, (number of samples + 1) times the first scaled vector is the start vector plus the sum of the samples, each weighted with its component along the direction at that time.", "quantifier": "all data up to n1 samples", "why_tests_cant": "all data", "anchors": ["mdp/nodes/pca_nodes_online.py: CCIPCANode._train, _amnesic"]}
{"id": "C302", "title": "Samples along a direction", "statement": "If the first vector is the unit vector e and the sample is a e, the first vector stays e, its eigenvalue d becomes w1 d + w2 a^2.", "quantifier": "all directions, factors, states", "why_tests_cant": "all directions", "anchors": ["mdp/nodes/pca_nodes_online.py: CCIPCANode._train"]}
{"id": "C303", "title": "Initial eigenvectors", "statement": "Initial vectors can be given, with init_eigen_vectors in the constructor or later; the directions of the node are then the ones given, and training starts from them.", "quantifier": "all matrices without zero column, nodes, data", "why_tests_cant": "the constructor argument", "anchors": ["mdp/nodes/pca_nodes_online.py: CCIPCANode.__init__, _set_init_eigen_vectors, _train, _check_params"]}
{"id": "C304", "title": "Reduced dimensionality", "statement": "get_reduced_dimsensionality is the number of dimensions such that the explained variance is at most var_rel times the total variance of the estimates; with var_rel=1 no dimension is dropped.", "quantifier": "all states, samples, var_rel", "why_tests_cant": "the order of two assignments", "anchors": ["mdp/nodes/pca_nodes_online.py: CCIPCANode._train, get_var_tot, get_reduced_dimsensionality"]}
{"id": "C305", "title": "CCIPCA in batch mode", "statement": "A CCIPCANode with training type batch can be trained with chunks of several samples.", "quantifier": "all states and chunks", "why_tests_cant": "training type batch", "anchors": ["mdp/nodes/pca_nodes_online.py: CCIPCANode._train", "mdp/signal_node_online.py: OnlineNode.set_training_type, train"]}
{"id": "C306", "title": "A projection matrix does not change", "statement": "The matrix returned by get_projmatrix is the one of the node at that time; it does not change by further training.", "quantifier": "all states, samples", "why_tests_cant": "references to arrays", "anchors": ["mdp/nodes/pca_nodes_online.py: CCIPCANode.get_projmatrix, _train, CCIPCAWhiteningNode._train"]}
{"id": "C307", "title": "Whitening scales the eigenvectors", "statement": "The eigenvectors reported by a CCIPCAWhiteningNode are unit vectors and those its projection is made of; execute followed by inverse is the sum of the rank-one projections on them, as for CCIPCANode.", "quantifier": "all states, inputs", "why_tests_cant": "the state before the first sample", "anchors": ["mdp/nodes/pca_nodes_online.py: CCIPCAWhiteningNode.get_eigenvectors, _execute, _inverse, CCIPCANode._execute, _inverse"]}
{"id": "C308", "title": "One update of MCANode", "statement": "An update makes from every component v the vector (keep) v - (rate)(C v + gamma (part of v in the directions already found)), with its length as eigenvalue, and normalizes it if asked to; the result is defined for every sample and vector other than zero.", "quantifier": "all chunks (batch) or samples (incremental), nodes, parameters", "why_tests_cant": "vectors that vanish", "anchors": ["mdp/nodes/mca_nodes_online.py: MCANode._train"]}
{"id": "C309", "title": "Orthogonal eigenvectors stay", "statement": "If the vectors of an MCANode are orthogonal eigenvectors of the data, then every component remains a multiple of itself.", "quantifier": "all data, nodes, numbers of components", "why_tests_cant": "all data", "anchors": ["mdp/nodes/mca_nodes_online.py: MCANode._train"]}
{"id": "C310", "title": "MCANode finds the minor component", "statement": "Repeated training with the same data is a power iteration; the share of a larger eigenvalue in the first component shrinks relative to the one of a smaller eigenvalue.", "quantifier": "all data, numbers of repetitions, step sizes", "why_tests_cant": "all step sizes", "anchors": ["mdp/nodes/mca_nodes_online.py: MCANode._train"]}
{"id": "C311", "title": "MCANode without normalization", "statement": "Without normalization an eigenvector of the data with eigenvalue l, as first component, is unchanged by a further update iff eps (d^2 + l) = 1/2 for its reported d, which is its length: l can be read off d.", "quantifier": "all data, step sizes", "why_tests_cant": "all data", "anchors": ["mdp/nodes/mca_nodes_online.py: MCANode._train"]}
{"id": "C312", "title": "IncSFA without removal of the mean", "statement": "An IncSFANode with remove_mean=False can be trained (constructor argument).", "quantifier": "all nodes with remove_mean=False, data", "why_tests_cant": "the option", "anchors": ["mdp/nodes/sfa_nodes_online.py: IncSFANode.__init__, _check_params, _train"]}
{"id": "C313", "title": "IncSFA with initial vectors", "statement": "init_pca_vectors and init_mca_vectors are the start vectors of the two nodes inside of an IncSFANode, with which it can be trained.", "quantifier": "all vectors, data", "why_tests_cant": "the options", "anchors": ["mdp/nodes/sfa_nodes_online.py: IncSFANode.__init__, _check_params", "mdp/nodes/pca_nodes_online.py: CCIPCANode._train", "mdp/nodes/mca_nodes_online.py: MCANode._train"]}
{"id": "C314", "title": "The running mean of IncSFA", "statement": "The mean that is removed is the average of all samples seen.", "quantifier": "all sequences of calls of train", "why_tests_cant": "the first call", "anchors": ["mdp/nodes/sfa_nodes_online.py: IncSFANode._check_params, _train", "mdp/nodes/stats_nodes_online.py: OnlineCenteringNode._train"]}
{"id": "C315", "title": "The first call of IncSFA", "statement": "The rows of the first call of train are used as those of later calls: it does not matter whether they come in one call or row by row.", "quantifier": "all first calls", "why_tests_cant": "rows lost", "anchors": ["mdp/nodes/sfa_nodes_online.py: IncSFANode._train, _check_params", "mdp/signal_node_online.py: OnlineNode.train"]}
{"id": "C316", "title": "A batch is an episode", "statement": "A call of train in batch mode is the same as training with its rows one by one, the first one with new_episode=True.", "quantifier": "all nodes that were set up, chunks of at least two rows", "why_tests_cant": "all chunks", "anchors": ["mdp/nodes/sfa_nodes_online.py: IncSFANode._train", "mdp/signal_node_online.py: OnlineNode.train"]}
{"id": "C317", "title": "Slow features are whitening times minor components", "statement": "The slow features of an IncSFANode are the product of the vectors of its whitening node and of its MCA node, so that execute is centering, whitening and projecting on the minor components.", "quantifier": "all nodes and calls", "why_tests_cant": "states after the first sample", "anchors": ["mdp/nodes/sfa_nodes_online.py: IncSFANode._train, _execute"]}
{"id": "C318", "title": "Inverse of IncSFA", "statement": "inverse gives an input that execute maps to the given output.", "quantifier": "all nodes with at least two samples, outputs; P any left inverse", "why_tests_cant": "all outputs", "anchors": ["mdp/nodes/sfa_nodes_online.py: IncSFANode._inverse, _execute"]}
{"id": "C319", "title": "NIPALS components are orthonormal", "statement": "The components v of a trained NIPALSNode are orthonormal for every conv and max_it (up to rounding), also if the inner loop stopped far from convergence.", "quantifier": "all data, chunks, conv, max_it, output_dim", "why_tests_cant": "loose tolerances", "anchors": ["mdp/nodes/nipals.py: NIPALSNode._stop_training"]}
{"id": "C320", "title": "d are the variances of the outputs", "statement": "After training of a NIPALSNode avg is the mean of the data, the outputs of the training data have mean zero, and d[k] is the sample variance of output k.", "quantifier": "all data, chunks, conv, max_it, output_dim", "why_tests_cant": "all data", "anchors": ["mdp/nodes/nipals.py: NIPALSNode._stop_training", "mdp/nodes/pca_nodes.py: PCANode._execute"]}
{"id": "C321", "title": "The desired variance is explained", "statement": "With output_dim given as a fraction the kept components have at least this fraction of the variance of the data, and one component less has not.", "quantifier": "all data, fractions, conv, max_it", "why_tests_cant": "different normalisations of the variances", "anchors": ["mdp/nodes/nipals.py: NIPALSNode._stop_training"]}
{"id": "C322", "title": "The first component has the largest variance", "statement": "The first component of a NIPALSNode has the largest variance of all directions; in any case not less than the first variable.", "quantifier": "all data, conv, max_it", "why_tests_cant": "data with uncorrelated variables", "anchors": ["mdp/nodes/nipals.py: NIPALSNode._stop_training"]}
{"id": "C323", "title": "Accuracy of NIPALS components", "statement": "Each component satisfies the eigenvector equation of the scatter matrix of the data without the earlier components, with an error bounded by conv times the size of the data; with conv=0 it is an eigenvector of the covariance matrix with eigenvalue d.", "quantifier": "all data, conv, max_it", "why_tests_cant": "all conv", "anchors": ["mdp/nodes/nipals.py: NIPALSNode._stop_training"]}
{"id": "C324", "title": "NIPALS components are numbers", "statement": "The components are not nan as long as the remaining data are not zero.", "quantifier": "all data", "why_tests_cant": "data with zero columns after deflation", "anchors": ["mdp/nodes/nipals.py: NIPALSNode._stop_training"]}
{"id": "C325", "title": "NIPALS training without convergence", "statement": "If the inner loop does not converge in max_it turns NodeException is raised, and training can be repeated with a larger max_it; a larger max_it does not change a result which was found with a smaller one.", "quantifier": "all data, conv, max_it, later calls", "why_tests_cant": "state after the exception", "anchors": ["mdp/nodes/nipals.py: NIPALSNode._stop_training", "mdp/signal_node.py: Cumulator"]}
{"id": "C326", "title": "output_dim of NIPALS", "statement": "A NIPALSNode with output_dim=k finds the first k components of the node without output_dim, and converges for the same data.", "quantifier": "all data, k, conv, max_it", "why_tests_cant": "all k", "anchors": ["mdp/nodes/nipals.py: NIPALSNode._stop_training"]}
{"id": "C327", "title": "The order of the data does not matter for NIPALS", "statement": "Nodes trained with the same rows in another order and in other chunks have the same components, d, avg, explained_variance and output_dim (up to rounding) and raise the same exceptions.", "quantifier": "all permutations, chunks, data, conv, max_it, output_dim", "why_tests_cant": "all orders", "anchors": ["mdp/nodes/nipals.py: NIPALSNode._stop_training"]}
{"id": "C328", "title": "extension_method registers exactly one attribute", "statement": "extension_method registers the function for the class and name of the extension, creates the extension if needed, and changes no other registered attribute, setup or teardown function.", "quantifier": "all registries, classes, names", "why_tests_cant": "all registries", "anchors": ["mdp/extension.py: extension_method, _register_attribute"]}
{"id": "C329", "title": "Registered functions stay", "statement": "Nothing registered for an extension disappears by later registrations; the setup and teardown functions stay the first ones, a second one raises ExtensionException and changes nothing.", "quantifier": "all sequences of registrations (methods, functions, class definitions)", "why_tests_cant": "all sequences", "anchors": ["mdp/extension.py: extension_setup, extension_teardown, extension_method", "mdp/extension.py: ExtensionNodeMetaclass.__new__"]}
{"id": "C330", "title": "Activation injects what is registered", "statement": "Activating an extension after any registrations succeeds if no other is active and its setup function does not raise, and then every class has exactly the registered attributes in place of its own.", "quantifier": "all sequences of registrations, class hierarchies, dictionaries", "why_tests_cant": "all hierarchies", "anchors": ["mdp/extension.py: activate_extension", "mdp/extension.py: ExtensionNodeMetaclass.__new__, extension_method"]}
{"id": "C331", "title": "A node class gets the attributes of its extension node", "statement": "After definition of an extension node for a node class, the extension gives the node class the attributes which the extension node has by its definition and that of its extension superclasses.", "quantifier": "all class hierarchies, registries", "why_tests_cant": "values registered for superclasses", "anchors": ["mdp/extension.py: ExtensionNodeMetaclass.__new__"]}
{"id": "C332", "title": "Order of definitions of an extension", "statement": "The base class of an extension, extension methods and setup functions can be defined in any order.", "quantifier": "all orders", "why_tests_cant": "methods before the class", "anchors": ["mdp/extension.py: ExtensionNodeMetaclass.__new__, extension_method, extension_setup, extension_teardown"]}
{"id": "C333", "title": "A refused class definition leaves no trace", "statement": "If the definition of an extension node class raises, the registry is unchanged and the corrected definition is accepted.", "quantifier": "all definitions", "why_tests_cant": "second attempt", "anchors": ["mdp/extension.py: ExtensionNodeMetaclass.__new__"]}
{"id": "C334", "title": "Registration while the extension is active", "statement": "Registering a method for an active extension does not change what deactivation restores.", "quantifier": "all registries, classes, states", "why_tests_cant": "own methods of classes", "anchors": ["mdp/extension.py: extension_method, deactivate_extension"]}
{"id": "C335", "title": "A nested BiFlow executes like the flat one", "statement": "A BiFlow with BiFlowNodes, to any depth, gives the same result, exceptions and effects on the nodes as the BiFlow of all inner nodes in order, when targets are node ids, 'exit' or the next node, if the ids are distinct and messages have no keys for the BiFlowNodes.", "quantifier": "all nestings, nodes, messages, data", "why_tests_cant": "all depths and targets", "anchors": ["bimdp/hinet/biflownode.py: BiFlowNode._execute, _get_target, _get_method, _request_node_id", "bimdp/biflow.py: BiFlow._execute_seq, _target_to_index"]}
{"id": "C336", "title": "Relative targets across BiFlowNodes", "statement": "A relative target counts nodes of the flow in which it was given, and reaches the node that many places away, also from and into a BiFlowNode.", "quantifier": "all nestings, relative targets", "why_tests_cant": "targets which leave a BiFlowNode", "anchors": ["bimdp/hinet/biflownode.py: BiFlowNode._execute, _get_method", "bimdp/biflow.py: BiFlow._execute_seq, _target_to_index"]}
{"id": "C337", "title": "Training inside a BiFlowNode", "statement": "The nodes before the training node are executed, it is trained, and results of its train and stop_training with a target are followed as in a BiFlow; the result of stop_training of every inner node is accepted.", "quantifier": "all flows of the BiFlowNode, training nodes, messages", "why_tests_cant": "the last node", "anchors": ["bimdp/hinet/biflownode.py: BiFlowNode._get_execute_method, _get_train_seq, _stop_training"]}
{"id": "C338", "title": "Looking for a node changes nothing", "statement": "flow[node_id] and other lookups find a node iff it is in the flow or one of its nested flows, and do not change what the flow does.", "quantifier": "all nestings, ids", "why_tests_cant": "the request stored", "anchors": ["bimdp/hinet/biflownode.py: BiFlowNode._request_node_id, _get_target, _bi_reset"]}
{"id": "C339", "title": "Inverse of a BiFlowNode", "statement": "A message with method 'inverse' without target goes through the inner nodes from the last to the first and leaves the BiFlowNode before its first one.", "quantifier": "all flows of the BiFlowNode with BiNodes, data", "why_tests_cant": "all lengths", "anchors": ["bimdp/hinet/biflownode.py: BiFlowNode._get_method, _execute", "bimdp/biflow.py: BiFlow._execute_seq"]}
{"id": "C340", "title": "A CloneBiLayer of a BiFlowNode", "statement": "All parts of the data of a CloneBiLayer are treated alike, with copies or with a single instance.", "quantifier": "all nodes, parts, messages", "why_tests_cant": "the targeted inner node", "anchors": ["bimdp/hinet/bilayer.py: CloneBiLayer._execute, _request_node_id", "bimdp/hinet/biflownode.py: BiFlowNode._get_target"]}
{"id": "C341", "title": "No data and an empty message", "statement": "A BiFlowNode can be put around the nodes of a BiFlow whatever they return, also (None, {}).", "quantifier": "all nodes", "why_tests_cant": "empty messages", "anchors": ["bimdp/hinet/biflownode.py: BiFlowNode._execute", "bimdp/binode.py: BiNode.execute", "bimdp/biflow.py: BiFlow._execute_seq"]}
{"id": "C342", "title": "The gradient is the total derivative", "statement": "A BiFlow of BiNodes executed with method 'gradient' returns the data which it returns without it, and for each sample the matrix of the total derivative of what the flow executes, which is unique.", "quantifier": "all flows of the nodes with a gradient, parameters, samples", "why_tests_cant": "finite differences are approximate", "anchors": ["bimdp/nodes/gradient.py: GradientExtensionNode._gradient, _identity_grad, _sfa_grad, _quadex_grad, _sfa2_grad, _layer_grad, _switchboard_gradient", "bimdp/biflow.py: BiFlow._execute_seq"]}
{"id": "C343", "title": "A gradient in the message is continued", "statement": "If grad in the message is the derivative of some function giving x, the node returns the derivative of that function followed by what the node executes (chain rule).", "quantifier": "all nodes with a gradient, functions, samples", "why_tests_cant": "all functions", "anchors": ["bimdp/nodes/gradient.py: GradientExtensionNode._gradient, _switchboard_gradient", "bimdp/hinet/bilayer.py: CloneBiLayer._execute, _split_message_data"]}
{"id": "C344", "title": "Gradients of flows with normal nodes", "statement": "The gradient which a BiFlow returns is that of what it executes, or it raises, also if some of its nodes are no BiNodes.", "quantifier": "all flows", "why_tests_cant": "normal nodes", "anchors": ["bimdp/nodes/gradient.py: GradientExtensionNode._gradient", "bimdp/biflow.py: BiFlow._execute_seq"]}
{"id": "C345", "title": "Gradients of nodes which were not executed before", "statement": "A flow which can be executed for some data has a gradient there.", "quantifier": "all flows of nodes with a gradient, data", "why_tests_cant": "nodes without input_dim", "anchors": ["bimdp/nodes/gradient.py: GradientExtensionNode._gradient, _identity_grad, _quadex_grad", "bimdp/binode.py: BiNode.execute"]}
{"id": "C346", "title": "Gradients of Layers", "statement": "A Layer of nodes which have a gradient has a gradient.", "quantifier": "all layers", "why_tests_cant": "Switchboards in layers", "anchors": ["bimdp/nodes/gradient.py: _layer_grad, _switchboard_gradient, GradientExtensionNode._get_grad"]}
{"id": "C347", "title": "Gradients of SameInputLayers", "statement": "The gradient of a SameInputLayer is the derivative of what it executes, or it is reported as not implemented.", "quantifier": "all layers of nodes with a gradient", "why_tests_cant": "the inherited method", "anchors": ["bimdp/nodes/gradient.py: _layer_grad", "mdp/hinet/layer.py: SameInputLayer"]}
{"id": "C348", "title": "Gradient of a CloneBiLayer at the start", "statement": "A CloneBiLayer returns a gradient of shape (samples, output_dim, input_dim), also as the first node of a flow.", "quantifier": "all nodes, numbers of clones", "why_tests_cant": "first node", "anchors": ["bimdp/nodes/gradient.py: GradientExtensionNode._gradient", "bimdp/hinet/bilayer.py: CloneBiLayer._execute, _combine_messages"]}
{"id": "C349", "title": "stop_gradient", "statement": "The gradient is available for stop messages: stop_training with method 'stop_gradient' gives the gradient at x.", "quantifier": "all nodes, states", "why_tests_cant": "never called", "anchors": ["bimdp/nodes/gradient.py: GradientExtensionNode._stop_gradient, _gradient", "bimdp/binode.py: BiNode.stop_training"]}
{"id": "C350", "title": "Gradient for no samples", "statement": "For data without samples the gradient has shape (0, output_dim, input_dim), and flows which can be executed have one.", "quantifier": "all flows", "why_tests_cant": "empty data", "anchors": ["bimdp/nodes/gradient.py: GradientExtensionNode._gradient, _sfa2_grad, _switchboard_gradient"]}
{"id": "C351", "title": "Data of a wrong dimension and gradients", "statement": "Data which execute refuses are refused with method 'gradient', too.", "quantifier": "all nodes with a gradient, data", "why_tests_cant": "wrong dimensions", "anchors": ["bimdp/nodes/gradient.py: GradientExtensionNode._gradient, _switchboard_gradient", "bimdp/binode.py: BiNode.execute"]}
{"id": "C352", "title": "CloneBiLayer hands on what its nodes hand on", "statement": "If the nodes of a CloneBiLayer return their data and message unchanged, the layer returns the data and the message (the same keys, arrays with the same contents, the same other values).", "quantifier": "all layers with one instance or copies, data, messages without use_copies", "why_tests_cant": "all splits of messages", "anchors": ["bimdp/hinet/bilayer.py: CloneBiLayer._execute, _train, _get_split_messages, _get_combined_message"]}
{"id": "C353", "title": "All variables reach the nodes of a CloneBiLayer", "statement": "The nodes together get all columns of the data given to the layer.", "quantifier": "all data, numbers of nodes", "why_tests_cant": "numbers of columns which are no multiple", "anchors": ["bimdp/hinet/bilayer.py: CloneBiLayer._execute, _check_input"]}
{"id": "C354", "title": "use_copies can be switched on and off", "statement": "Setting use_copies, also by a message, switches between a single instance and copies.", "quantifier": "all layers, messages", "why_tests_cant": "the way back", "anchors": ["bimdp/hinet/bilayer.py: CloneBiLayer._set_use_copies, _extract_message_copy_flag"]}
{"id": "C355", "title": "Training of a CloneBiLayer", "statement": "A single instance is trained with all parts in order; copies are trained each with its own part.", "quantifier": "all nodes, data, numbers of nodes", "why_tests_cant": "all nodes", "anchors": ["bimdp/hinet/bilayer.py: CloneBiLayer._train"]}
{"id": "C356", "title": "Messages of stop_training in a CloneBiLayer", "statement": "Arrays in the message of stop_training are split among the nodes like those of execute and train.", "quantifier": "all layers, messages", "why_tests_cant": "the case of one instance", "anchors": ["bimdp/hinet/bilayer.py: CloneBiLayer._stop_training, _get_split_messages"]}
{"id": "C357", "title": "Copies or one instance of a CloneBiLayer", "statement": "If the node does not change in execute, a CloneBiLayer returns the same with copies as with a single instance.", "quantifier": "all nodes without state, data, messages", "why_tests_cant": "identity of arrays", "anchors": ["bimdp/hinet/bilayer.py: CloneBiLayer._execute, _get_combined_message"]}
{"id": "C358", "title": "Inverse of a CloneBiLayer", "statement": "inverse of a CloneBiLayer takes the parts back with the inverse of the node; also with copies and after training.", "quantifier": "all layers of invertible nodes, outputs", "why_tests_cant": "copies; layers which were not executed", "anchors": ["bimdp/hinet/bilayer.py: CloneBiLayer, _stop_training", "mdp/hinet/layer.py: CloneLayer._inverse", "mdp/signal_node.py: Node._pre_inversion_checks"]}
{"id": "C359", "title": "Messages of the nodes of a CloneBiLayer are joined", "statement": "The message returned has the keys of the message of the last node; arrays which are not the same for the first and the last node are put side by side in the order of the nodes, the others are those of the last node.", "quantifier": "all results of nodes", "why_tests_cant": "all messages", "anchors": ["bimdp/hinet/bilayer.py: CloneBiLayer._get_combined_message"]}
{"id": "C360", "title": "The mean inverse is the least-squares solution", "statement": "inverse of a MeanInverseSwitchboard gives the input whose execution is nearest to the given outputs in the least-squares sense; on the inputs which are connected it is the only such one, the others are zero.", "quantifier": "all connections, outputs, orders of equal keys in the sort", "why_tests_cant": "all outputs, also inconsistent ones", "anchors": ["mdp/hinet/switchboard.py: MeanInverseSwitchboard._inverse"]}
{"id": "C361", "title": "inverse after execute of a MeanInverseSwitchboard", "statement": "inverse(execute(x)) agrees with x on the inputs which are connected and is zero on the others, and executing it gives the same outputs again.", "quantifier": "all connections, inputs", "why_tests_cant": "all connections", "anchors": ["mdp/hinet/switchboard.py: MeanInverseSwitchboard._inverse, Switchboard._execute"]}
{"id": "C362", "title": "A BiSwitchboard routes its messages", "statement": "execute of a BiSwitchboard routes the data and those arrays of the message with at least two axes whose second dimension is input_dim; other values and all keys are unchanged; if the connections are invertible, inverse gives back data and message.", "quantifier": "all connections, data, messages", "why_tests_cant": "arrays which match by chance", "anchors": ["bimdp/hinet/biswitchboard.py: BiSwitchboard._execute, _inverse, _execute_msg, _inverse_msg"]}
{"id": "C363", "title": "A BiSwitchboard sends data down", "statement": "Data and message arrays can be sent down through a BiSwitchboard, for any connections (it prepares down_connections for the ones which are not invertible).", "quantifier": "all connections", "why_tests_cant": "connections which are not invertible", "anchors": ["bimdp/hinet/biswitchboard.py: BiSwitchboard.__init__, _inverse, _inverse_msg"]}
{"id": "C364", "title": "Results of a BiClassifier", "statement": "execute of a BiClassifier returns x unchanged, and exactly the results which were asked for, each under the given prefix followed by labels, probs or ranks; no two of them fall on the same key.", "quantifier": "all prefixes, flags, inputs", "why_tests_cant": "all prefixes", "anchors": ["bimdp/biclassifier.py: BiClassifier._execute"]}
{"id": "C365", "title": "A created switchboard fits to the layer before", "statement": "The switchboard returned by create_switchboard has input_dim equal to prev_output_dim.", "quantifier": "all previous switchboards, free parameters, output dimensions", "why_tests_cant": "output dimensions which are no multiple", "anchors": ["mdp/hinet/switchboard_factory.py: FactoryExtensionChannelSwitchboard.create_switchboard, _get_switchboard_kwargs, FactoryRectangular2dSwitchboard, FactoryDoubleRect2dSwitchboard"]}
{"id": "C366", "title": "free_params of the caller", "statement": "create_switchboard leaves free_params as it is, so that it can be used for further layers; the version for BiNodes makes the same switchboards.", "quantifier": "all parameters, layers", "why_tests_cant": "the dict of the caller", "anchors": ["mdp/hinet/switchboard_factory.py: FactoryRectangular2dSwitchboard._get_switchboard_kwargs, FactoryDoubleRect2dSwitchboard._get_switchboard_kwargs", "bimdp/hinet/biswitchboard.py: _binode_create_switchboard"]}
{"id": "C367", "title": "Rhombic switchboards from the factory", "statement": "create_switchboard of DoubleRhomb2dSwitchboard makes a switchboard for the outputs of a DoubleRect2dSwitchboard with compatible field_size.", "quantifier": "all previous switchboards, field sizes", "why_tests_cant": "never called in the tests", "anchors": ["mdp/hinet/switchboard_factory.py: FactoryDoubleRhomb2dSwitchboard._get_switchboard_kwargs", "mdp/hinet/switchboard.py: DoubleRhomb2dSwitchboard.__init__"]}
{"id": "C368", "title": "ProjectionNode removes the regression on the expanded sources", "statement": "A trained ProjectionNode copies the S+1 sources unchanged and subtracts from each input the expanded sources weighted with their covariances with that input in all training data, whatever the chunks were.", "quantifier": "all dimensions, training data, chunkings, samples", "why_tests_cant": "all data, all ways to cut them", "anchors": ["mdp/nodes/xsfa_nodes.py: ProjectionNode._train, _stop_training, _execute"]}
{"id": "C369", "title": "What a ProjectionNode leaves is uncorrelated with the expanded sources", "statement": "If the expanded sources are white on the training data, the inputs returned for the training data are uncorrelated with every expanded source; this holds for any number L of inputs.", "quantifier": "all dimensions, training data", "why_tests_cant": "all data; L = 0", "anchors": ["mdp/nodes/xsfa_nodes.py: ProjectionNode._execute, XSFANode._get_source_extractor"]}
{"id": "C370", "title": "NormalizeNode gives mean zero and variance one", "statement": "After training, the training data come out with mean 0 and variance 1 in every component, and inverse undoes execute.", "quantifier": "all training data, chunkings, components", "why_tests_cant": "constant components", "anchors": ["mdp/nodes/xsfa_nodes.py: NormalizeNode._stop_training, _execute, _inverse"]}
{"id": "C371", "title": "Training phases of a source extractor", "statement": "A source extractor of XSFANode has five training phases and those of the internal expansion, the last of several has one; XSFANode with n > 1 sources and an expansion without training has 5(n-1)+1 phases.", "quantifier": "all output dimensions, expansions", "why_tests_cant": "all output dimensions", "anchors": ["mdp/nodes/xsfa_nodes.py: XSFANode._get_source_extractor, _initialize_internal_flow"]}
{"id": "C372", "title": "Training schedule of XSFANode", "statement": "Training XSFANode for as many phases as get_remaining_train_phase says trains the output_dim source extractors one after the other, each for all its phases, and then the training is over.", "quantifier": "all output dimensions, phases per extractor", "why_tests_cant": "all numbers of phases; before the first chunk", "anchors": ["mdp/nodes/xsfa_nodes.py: XSFANode._get_train_seq, _check_train_args, _initialize_internal_flow, _stop_training"]}
{"id": "C373", "title": "FANode.execute is the maximum a posteriori estimate", "statement": "execute returns the latent variables y with the greatest joint density of y and x under the fitted model (y standard normal, x = A y + mu + noise of variances sigma), and no other y has it.", "quantifier": "all parameters with positive noise variances, inputs", "why_tests_cant": "all inputs and parameters", "anchors": ["mdp/nodes/em_nodes.py: FANode._execute, _stop_training"]}
{"id": "C374", "title": "The M-step of FANode is optimal", "statement": "The new loading factors of each component minimise the mean over the training data and the posterior distribution of the squared error of that component; they are the only minimum, and the new noise variance is its value.", "quantifier": "all data, parameters with positive noise variances", "why_tests_cant": "all data", "anchors": ["mdp/nodes/em_nodes.py: FANode._stop_training"]}
{"id": "C375", "title": "The noise variances of FANode stay positive", "statement": "Whatever the initial loading factors and the number of cycles are, the fitted noise variances are positive if no component of the data is constant, and the matrices to be inverted are positive definite.", "quantifier": "all covariances with positive diagonal, initial factors, numbers of cycles, tolerances", "why_tests_cant": "all random initial factors and all cycles", "anchors": ["mdp/nodes/em_nodes.py: FANode._stop_training"]}
{"id": "C376", "title": "The likelihood curve of FANode does not decrease", "statement": "node.lhood is nondecreasing, and the warning about a decreasing likelihood is not given, for every tolerance which is not negative.", "quantifier": "all likelihoods, tolerances >= 0, numbers of cycles", "why_tests_cant": "all numerical errors of the likelihood", "anchors": ["mdp/nodes/em_nodes.py: FANode._stop_training"]}
{"id": "C377", "title": "node.lhood belongs to the fitted parameters", "statement": "The last value of node.lhood is the likelihood of the parameters the node has after training.", "quantifier": "all data, initial factors, numbers of cycles, tolerances", "why_tests_cant": "the values are not compared with the parameters in the tests", "anchors": ["mdp/nodes/em_nodes.py: FANode._stop_training"]}
{"id": "C378", "title": "FANode after singular data", "statement": "After stop_training raised NodeException for singular data the node can be trained with more data.", "quantifier": "all nodes, further calls", "why_tests_cant": "calls after an exception", "anchors": ["mdp/nodes/em_nodes.py: FANode._stop_training, _train"]}
{"id": "C379", "title": "Latent variables are shrunk by generate_input and execute", "statement": "For y which is not zero, y' = execute(generate_input(y)) satisfies 0 <= y.y' < y.y.", "quantifier": "all parameters with positive noise variances, latent variables", "why_tests_cant": "all y", "anchors": ["mdp/nodes/em_nodes.py: FANode.generate_input, _execute"]}
{"id": "C380", "title": "Output of Convolution2DNode", "statement": "Entry f*oh*ow + i*ow + j of a row of execute is the (i, j) entry of the two-dimensional convolution of the data point with filter f in the chosen mode and with the chosen values around the image; output_dim is the number of columns, and further data of the same shape can be executed.", "quantifier": "all filters, image sizes, modes, approaches, boundaries, data; nodes before or after their first execution", "why_tests_cant": "few sizes are tested", "anchors": ["mdp/nodes/convolution_nodes.py: Convolution2DNode._pre_execution_checks, _execute"]}
{"id": "C381", "title": "Flattened data points and images are treated alike", "statement": "With input_shape (h, w), execute of an array of shape (n, h*w) gives the same node and the same result (or exception) as the same numbers in shape (n, h, w).", "quantifier": "all nodes, data", "why_tests_cant": "all states of the node", "anchors": ["mdp/nodes/convolution_nodes.py: Convolution2DNode._pre_execution_checks, _execute"]}
{"id": "C382", "title": "Images of another shape are rejected", "statement": "A node with given input_shape raises for images of any other shape, also when the number of pixels, which is all that is compared, is the same.", "quantifier": "all filters, sizes, modes on which the filters fit", "why_tests_cant": "all pairs of shapes", "anchors": ["mdp/nodes/convolution_nodes.py: Convolution2DNode._pre_execution_checks, _execute"]}
{"id": "C383", "title": "Full convolution is the product of polynomials", "statement": "In mode 'full' with zeros around the images, the output for a filter read as coefficients of a polynomial in two variables is the product of the polynomials of the image and of the filter.", "quantifier": "all images, filters, values of the variables", "why_tests_cant": "all values", "anchors": ["mdp/nodes/convolution_nodes.py: Convolution2DNode._execute"]}
{"id": "C384", "title": "Convolution2DNode is linear", "statement": "execute(a*x + b*z) = a*execute(x) + b*execute(z), unless boundary 'fill' with a fill value other than zero is used.", "quantifier": "all filters, modes, boundaries, data, coefficients", "why_tests_cant": "all data", "anchors": ["mdp/nodes/convolution_nodes.py: Convolution2DNode._execute"]}
{"id": "C385", "title": "Filters can be replaced", "statement": "After new filters were assigned to node.filters, execute gives for each data point the convolution with the new filters, or raises.", "quantifier": "all nodes, filters, data", "why_tests_cant": "filters are assigned only once in the tests", "anchors": ["mdp/nodes/convolution_nodes.py: Convolution2DNode.set_filters, _pre_execution_checks, _execute"]}
{"id": "C386", "title": "A rejected batch does no harm", "statement": "Data which the node accepts are accepted also after a batch was rejected.", "quantifier": "all nodes, batches", "why_tests_cant": "calls after an exception", "anchors": ["mdp/nodes/convolution_nodes.py: Convolution2DNode._pre_execution_checks"]}
{"id": "C387", "title": "input_dim and input_shape must agree", "statement": "A node whose input_dim is not the number of pixels of its input_shape raises.", "quantifier": "all nodes and data", "why_tests_cant": "inconsistent arguments", "anchors": ["mdp/nodes/convolution_nodes.py: Convolution2DNode.__init__, _pre_execution_checks, _execute"]}
{"id": "C388", "title": "Filters larger than the images in mode 'valid'", "statement": "In mode 'valid', images on which the filters do not fit raise, and no output_dim is set.", "quantifier": "all filters and image sizes", "why_tests_cant": "invalid sizes", "anchors": ["mdp/nodes/convolution_nodes.py: Convolution2DNode._pre_execution_checks, _execute"]}
{"id": "C389", "title": "execute of RBMNode returns the probabilities of the hidden variables", "statement": "In the distribution with weights exp(-energy(v, h)), the hidden variables given v are independent, and execute(v)[n, j] is the probability of h_j = 1.", "quantifier": "all parameters, numbers of variables, v", "why_tests_cant": "all states of the variables", "anchors": ["mdp/nodes/rbm_nodes.py: RBMNode._sample_h, _execute, _energy"]}
{"id": "C390", "title": "sample_v returns the probabilities of the visible variables", "statement": "In the same distribution the visible variables given h are independent, with the probabilities sample_v(h)[0].", "quantifier": "all parameters, numbers of variables, h", "why_tests_cant": "all states of the variables", "anchors": ["mdp/nodes/rbm_nodes.py: RBMNode._sample_v, _energy"]}
{"id": "C391", "title": "Labels of RBMWithLabelsNode", "statement": "Given h, the visible variables and the label (exactly one of them active) are independent in the distribution of the energy, with the probabilities of sample_v; the label probabilities are positive and sum to one, also in the reconstructions used in training.", "quantifier": "all parameters, numbers of variables and labels, h", "why_tests_cant": "all states of the variables", "anchors": ["mdp/nodes/rbm_nodes.py: RBMWithLabelsNode._sample_v, energy"]}
{"id": "C392", "title": "Update of RBMNode.train", "statement": "train adds to (w, bv, bh) the step D with <D, q> = momentum*<D_before, q> - epsilon*decay*<w, q.w> + epsilon/n * (sum of the energies under q of the reconstructions - sum of the energies under q of the data) for all parameters q, where the reconstructions are binary and hidden variables are replaced by their probabilities; _train_err is the squared error of the reconstructions.", "quantifier": "all data, parameters, random numbers, at least one CD iteration, update_with_ph=True", "why_tests_cant": "all data", "anchors": ["mdp/nodes/rbm_nodes.py: RBMNode._train"]}
{"id": "C393", "title": "Training lowers the energy of the data", "statement": "Without momentum and decay, after train the energy of the data less that of the reconstructions is smaller by n/epsilon*<D, D>.", "quantifier": "all data, parameters, random numbers", "why_tests_cant": "all data", "anchors": ["mdp/nodes/rbm_nodes.py: RBMNode._train"]}
{"id": "C394", "title": "Number of CD iterations", "statement": "train accepts every number of CD iterations n_updates >= 0.", "quantifier": "all numbers", "why_tests_cant": "the number zero is not tested", "anchors": ["mdp/nodes/rbm_nodes.py: RBMNode._train"]}
{"id": "C395", "title": "Samples of an RBMNode", "statement": "A sampled variable is one exactly if the random number drawn for it is smaller than its probability, each variable has its own random number; execute does not depend on random numbers and returns numbers strictly between 0 and 1.", "quantifier": "all data, parameters, random numbers", "why_tests_cant": "all random numbers", "anchors": ["mdp/nodes/rbm_nodes.py: RBMNode._sample_h, _execute"]}
{"id": "C396", "title": "Numbers of labels are checked", "statement": "train and execute of RBMWithLabelsNode with visible_dim given raise if v has not visible_dim or l not labels_dim columns.", "quantifier": "all arguments", "why_tests_cant": "wrong arguments", "anchors": ["mdp/nodes/rbm_nodes.py: RBMWithLabelsNode.__init__, train, execute"]}
{"id": "C397", "title": "A training phase of ParallelBiFlow is that of BiFlow", "statement": "If BiFlow.train completes a training phase of a node, ParallelBiFlow completes it with the nodes in the same state, both for phases trained locally and for those closed by use_results.", "quantifier": "all nodes, chunks with data and ordinary messages, stop messages; no chunk executed out of the order of the data", "why_tests_cant": "all interleavings of data, messages and targets", "anchors": ["bimdp/parallel/parallelbiflow.py: ParallelBiFlow._local_train_phase, use_results", "bimdp/parallel/parallelbiflow.py: BiFlowTrainCallable.__call__", "bimdp/biflow.py: BiFlow._train_node"]}
{"id": "C398", "title": "Chunks consisting of messages only", "statement": "A training phase whose chunks are messages without data (x is None), accepted by BiFlow.train, is accepted by ParallelBiFlow.train.", "quantifier": "all nodes and messages", "why_tests_cant": "data and messages in all combinations", "anchors": ["bimdp/parallel/parallelbiflow.py: ParallelBiFlow.use_results", "bimdp/hinet/biflownode.py: BiFlowNode.stop_training, _train"]}
{"id": "C399", "title": "Executions started by stop_training", "statement": "A stop_training which starts an execution running to the end of the flow is accepted by ParallelBiFlow.train as by BiFlow.train.", "quantifier": "all nodes", "why_tests_cant": "the result of stop_training is rarely used in the tests", "anchors": ["bimdp/parallel/parallelbiflow.py: ParallelBiFlow._local_train_phase, use_results"]}
{"id": "C400", "title": "Chunks which do not reach the trained node", "statement": "ParallelBiFlow.train raises, as BiFlow.train does, if a chunk does not reach the node in training.", "quantifier": "all nodes, chunks", "why_tests_cant": "failing chunks", "anchors": ["bimdp/parallel/parallelbiflow.py: BiFlowTrainCallable.__call__"]}
{"id": "C401", "title": "ParallelBiFlow.execute with a scheduler returns what BiFlow.execute returns", "statement": "If every chunk gives an array: the same array, the same combined message or the same exception, and the same effect on lists in messages.", "quantifier": "all chunks, messages, lists shared between messages", "why_tests_cant": "all messages and orders of keys", "anchors": ["bimdp/parallel/parallelbiflow.py: ParallelBiFlow.execute, use_results", "bimdp/biflow.py: MessageResultContainer", "bimdp/parallel/parallelbiflow.py: BiFlowExecuteCallable.__call__"]}
{"id": "C402", "title": "Flows without output array", "statement": "A flow whose last node returns no array is executed by ParallelBiFlow with a scheduler as by BiFlow: the messages are returned.", "quantifier": "all chunks", "why_tests_cant": "the missing output is not tested in parallel", "anchors": ["bimdp/parallel/parallelbiflow.py: ParallelBiFlow.use_results"]}
{"id": "C403", "title": "Schedulers per node for ParallelBiFlow", "statement": "ParallelBiFlow.train with an iterable of schedulers trains each node with its own scheduler, shuts down the schedulers used, and returns.", "quantifier": "all numbers of nodes and phases, pretrained nodes, missing schedulers", "why_tests_cant": "all training orders", "anchors": ["bimdp/parallel/parallelbiflow.py: ParallelBiFlow.train"]}
{"id": "C404", "title": "ParallelCheckpointBiFlow.train without a scheduler", "statement": "ParallelCheckpointBiFlow.train(data, checkpoints) without a scheduler trains the flow serially; ParallelBiFlow.train hands its arguments on to BiFlow.train or to setup_parallel_training.", "quantifier": "all calls", "why_tests_cant": "all ways of passing arguments", "anchors": ["bimdp/parallel/parallelbiflow.py: ParallelCheckpointBiFlow.train", "bimdp/parallel/parallelbiflow.py: ParallelBiFlow.train"]}
{"id": "C405", "title": "Arguments of ParallelCheckpointBiFlow.train with a scheduler", "statement": "Data, messages, checkpoints, callable class and stop messages given to ParallelCheckpointBiFlow.train with a scheduler arrive in the training.", "quantifier": "all calls", "why_tests_cant": "all ways of passing arguments", "anchors": ["bimdp/parallel/parallelbiflow.py: ParallelCheckpointBiFlow.train, setup_parallel_training", "mdp/parallel/parallelflows.py: ParallelCheckpointFlow.train, setup_parallel_training"]}
{"id": "C406", "title": "Switching between copies and one instance during training", "statement": "If a ParallelCloneBiLayer is switched to copies and back during a training phase, the single node ends up with the training state it would have without the switches.", "quantifier": "all numbers of nodes, training states that are sums over the data, chunks", "why_tests_cant": "switching in the middle of a phase", "anchors": ["bimdp/parallel/parallelbihinet.py: ParallelCloneBiLayer._set_use_copies"]}
{"id": "C407", "title": "Training of forked ParallelCloneBiLayers", "statement": "Joining the trained forks of a layer gives the layer trained on all the chunks, also if a message switches use_copies in a fork.", "quantifier": "all layers with additive nodes, chunks", "why_tests_cant": "all sequences of forks", "anchors": ["bimdp/parallel/parallelbihinet.py: ParallelCloneBiLayer._fork, _join, _set_use_copies"]}
{"id": "C408", "title": "Giving up the copies", "statement": "A ParallelCloneBiLayer with use_copies can be switched back to a single instance, during and after the training.", "quantifier": "all layers", "why_tests_cant": "calls after the training", "anchors": ["bimdp/parallel/parallelbihinet.py: ParallelCloneBiLayer._set_use_copies"]}
{"id": "C409", "title": "Parallel execution by hand", "statement": "After setup_parallel_execution the tasks handed out run the nodes the flow has at that time.", "quantifier": "all flows, histories of training, execution and assignments", "why_tests_cant": "all histories", "anchors": ["bimdp/parallel/parallelbiflow.py: ParallelBiFlow.setup_parallel_execution", "mdp/parallel/parallelflows.py: ParallelFlow.setup_parallel_execution"]}
{"id": "C410", "title": "Coroutines as methods of BiNodes", "statement": "Each call of a method decorated with binode_coroutine resumes the body where the last call stopped, with the arguments of the call, and returns what it yields; after the end of the body (None is returned) or bi_reset the next call starts the body anew.", "quantifier": "all bodies which do not raise and do not touch the bookkeeping, several methods per node, all sequences of calls and resets", "why_tests_cant": "all interleavings of calls and resets", "anchors": ["bimdp/binode.py: binode_coroutine", "bimdp/binode.py: BiNode.bi_reset"]}
{"id": "C411", "title": "Coroutine methods are independent", "statement": "A call of one coroutine method changes nothing about where another coroutine method of the same node will be resumed.", "quantifier": "all bodies, calls", "why_tests_cant": "all interleavings", "anchors": ["bimdp/binode.py: binode_coroutine"]}
{"id": "C412", "title": "bi_reset ends all coroutines", "statement": "bi_reset never raises AttributeError, the node can be copied afterwards, and all later calls behave as on a new node with the same state; no call ever fails in the bookkeeping.", "quantifier": "all bodies (raising or not), all histories", "why_tests_cant": "all histories", "anchors": ["bimdp/binode.py: BiNode.bi_reset", "bimdp/binode.py: binode_coroutine"]}
{"id": "C413", "title": "A coroutine after an exception", "statement": "After an exception in the body of a coroutine method the next call starts the body anew.", "quantifier": "all bodies and histories", "why_tests_cant": "calls after an exception", "anchors": ["bimdp/binode.py: binode_coroutine"]}
{"id": "C414", "title": "return in a coroutine", "statement": "A coroutine method which ends with 'return y' gives the result which a normal method with 'return y' gives.", "quantifier": "all bodies, messages, targets", "why_tests_cant": "return with a value is not tested", "anchors": ["bimdp/binode.py: binode_coroutine", "bimdp/binode.py: BiNode._combine_result"]}
{"id": "C415", "title": "Overriding coroutines", "statement": "A coroutine method which calls the coroutine method of the same name of its base class is resumed by the next call.", "quantifier": "all such pairs", "why_tests_cant": "inheritance is not tested", "anchors": ["bimdp/binode.py: binode_coroutine"]}
{"id": "C416", "title": "CuBICANode rotates", "statement": "The filters of CuBICANode form an orthogonal matrix, the data it ends up with are the data times the filters, white data stay white, and the number of sweeps, the angles recorded and the convergence returned are those of the documented stop criterion.", "quantifier": "all data, dimensions, limits", "why_tests_cant": "all data", "anchors": ["mdp/nodes/ica_nodes.py: CuBICANode.core"]}
{"id": "C417", "title": "The angle of CuBICANode maximizes the contrast", "statement": "Each rotation of CuBICANode is by an angle which maximizes the sum of the squared third and fourth order cumulants of the two components among all rotations.", "quantifier": "all white data", "why_tests_cant": "all data and angles", "anchors": ["mdp/nodes/ica_nodes.py: CuBICANode.core"]}
{"id": "C418", "title": "Projection and reconstruction matrices of ICANode", "statement": "execute is multiplication by get_projmatrix, inverse by get_recmatrix, transposed or not, with and without whitening; if the filters are orthogonal, inverse undoes execute and execute undoes inverse.", "quantifier": "all filters, whitening matrices inverse to each other, data", "why_tests_cant": "all matrices", "anchors": ["mdp/nodes/ica_nodes.py: ICANode._execute, _inverse", "mdp/nodes/ica_nodes.py: ProjectMatrixMixin.get_projmatrix, get_recmatrix"]}
{"id": "C419", "title": "Telescope mode of ICANode", "statement": "stop_training with telescope=True works for every number of observations with which it works with telescope=False: core is run on growing numbers of observations until convergence.", "quantifier": "all numbers of observations and dimensions, all results of core", "why_tests_cant": "all sizes of the data", "anchors": ["mdp/nodes/ica_nodes.py: ICANode._stop_training"]}
{"id": "C420", "title": "output_dim of ICANode", "statement": "After stop_training output_dim is the number of columns which execute returns.", "quantifier": "all whitening parameters and dimensions", "why_tests_cant": "all combinations of parameters", "anchors": ["mdp/nodes/ica_nodes.py: ICANode._stop_training, _set_input_dim / _set_output_dim"]}
{"id": "C421", "title": "JADENode ends with orthonormal filters", "statement": "JADENode.core ends after at most max_it+2 sweeps, by convergence or NodeException; the filters are then orthonormal, with nonnegative first components, and the cumulant matrices are those of the start conjugated by the rotations.", "quantifier": "all data, dimensions, limits, max_it", "why_tests_cant": "all data", "anchors": ["mdp/nodes/jade.py: JADENode.core"]}
{"id": "C422", "title": "Rotations of JADENode maximize the diagonal", "statement": "Each rotation considered by JADENode is by an angle which maximizes the sum of the squares of the diagonals of the cumulant matrices; the sum never gets smaller, and the sum of all squares stays the same.", "quantifier": "all data, pairs", "why_tests_cant": "all data and angles", "anchors": ["mdp/nodes/jade.py: JADENode.core"]}
{"id": "C423", "title": "Cumulant matrices of JADENode", "statement": "The matrices which JADENode diagonalizes are those of the fourth order cumulants (sqrt(2) times them for different indices), so that orthogonal mixtures of independent components are separated.", "quantifier": "all data", "why_tests_cant": "all data", "anchors": ["mdp/nodes/jade.py: JADENode.core"]}
{"id": "C424", "title": "The nonlinearities of FastICANode", "statement": "FastICANode never raises 'Nonlinearity not found': whatever the nonlinearities, the sample size, the step size and the history of strokes, the code of the nonlinearity is one of those implemented.", "quantifier": "all constructor arguments with valid g and fine_g (deflation: limit > 0, max_it_fine >= 1), all data, guesses, random samples", "why_tests_cant": "all histories of the step size", "anchors": ["mdp/nodes/ica_nodes.py: FastICANode.core", "mdp/nodes/ica_nodes.py: FastICANode.__init__"]}
{"id": "C425", "title": "Filters of the deflation approach", "statement": "If FastICANode with approach='defl' is trained without an exception, its filters are orthonormal.", "quantifier": "all data, guesses, arguments, random samples", "why_tests_cant": "all data and all patterns of convergence", "anchors": ["mdp/nodes/ica_nodes.py: FastICANode.core"]}
{"id": "C426", "title": "coarse_limit of FastICANode", "statement": "With a coarse_limit above limit the iteration goes on with fine_g as soon as the change gets below coarse_limit.", "quantifier": "both approaches, all data, guesses, limits", "why_tests_cant": "coarse_limit with the deflation approach is not tested for its effect", "anchors": ["mdp/nodes/ica_nodes.py: FastICANode.core", "mdp/nodes/ica_nodes.py: FastICANode.__init__"]}
{"id": "C427", "title": "Filters of the symmetric approach", "statement": "FastICANode with approach='symm' ends within max_it rounds with a NodeException (or LinAlgError from the inverse), or its filters are orthonormal and the convergence returned is below limit and measures the last change of the filters.", "quantifier": "all data, guesses, arguments, random samples; sqrtm(inv(.)) is a symmetric square root of the inverse if it returns", "why_tests_cant": "all data", "anchors": ["mdp/nodes/ica_nodes.py: FastICANode.core"]}
{"id": "C428", "title": "Step size and approach do not change the fixed points of FastICANode", "statement": "A step with step size 1 of the stabilized version of a nonlinearity has the direction of the plain step; for every step size a unit vector left alone by one is left alone by the other; with an orthogonal matrix the symmetric approach makes the step of the deflation approach in every column.", "quantifier": "all four nonlinearities, all data, unit vectors, step sizes (denominator not zero)", "why_tests_cant": "all data and step sizes", "anchors": ["mdp/nodes/ica_nodes.py: FastICANode.core"]}
{"id": "C429", "title": "A solution given as guess stays", "statement": "If guess is orthonormal and each of its columns is left alone (up to sign) by the steps with the nonlinearities asked for, as it is for independent components, then the deflation approach converges in every component, and the filters are the columns of guess up to their signs.", "quantifier": "all data, dimensions, step sizes, arguments with at least two iterations", "why_tests_cant": "all data", "anchors": ["mdp/nodes/ica_nodes.py: FastICANode.core"]}
{"id": "C430", "title": "guess is not changed", "statement": "Training FastICANode does not change the array which the user gave as guess.", "quantifier": "all guesses, data, arguments", "why_tests_cant": "the guess is not looked at after training", "anchors": ["mdp/nodes/ica_nodes.py: FastICANode.core"]}
{"id": "C431", "title": "guess is the mixing matrix", "statement": "With guess equal to the mixing matrix of white sources the starting vectors extract the sources (up to the order and signs).", "quantifier": "all mixing and whitening matrices, with and without whitening", "why_tests_cant": "all matrices", "anchors": ["mdp/nodes/ica_nodes.py: FastICANode.core"]}
{"id": "C432", "title": "The contrast of ISFANode along a rotation", "statement": "For every pair of axes and every angle the contrast of the rotated covariance matrices is the trigonometric polynomial with the coefficients which the node computes: of period pi/2 for two output axes, of period pi for an output and an outer axis.", "quantifier": "all symmetric matrices, numbers of lags, weights, coefficients, pairs, angles", "why_tests_cant": "all matrices and angles", "anchors": ["mdp/nodes/isfa_nodes.py: ISFANode._givens_angle_case1, _givens_angle_case2", "mdp/nodes/isfa_nodes.py: ISFANode._get_contrast", "mdp/utils/covariance.py: MultipleCovarianceMatrices.rotate"]}
{"id": "C433", "title": "The angle of ISFANode", "statement": "For two output axes the angle chosen minimizes the contrast over all rotations in their plane and is no worse than no rotation; in both cases the contrast returned with the angle is that of the matrices rotated by it.", "quantifier": "all symmetric matrices, weights, pairs", "why_tests_cant": "all matrices and angles", "anchors": ["mdp/nodes/isfa_nodes.py: ISFANode._givens_angle"]}
{"id": "C434", "title": "ISFANode rotates", "statement": "The matrix found by the optimization is orthogonal, and the covariance matrices it ends up with are the given ones transformed with it.", "quantifier": "all symmetric matrices, orders of the sweeps, random rotations and permutations of the outer space, limits", "why_tests_cant": "all random sequences", "anchors": ["mdp/nodes/isfa_nodes.py: ISFANode._optimize, _do_sweep"]}
{"id": "C435", "title": "The contrast never gets worse", "statement": "Without an outer space the final contrast of ISFANode is at most the initial contrast.", "quantifier": "all symmetric matrices, weights, orders of the sweeps, limits", "why_tests_cant": "all matrices and orders", "anchors": ["mdp/nodes/isfa_nodes.py: ISFANode._optimize, _do_sweep"]}
{"id": "C436", "title": "ISFANode works for every number of components", "statement": "The training of ISFANode never ends with an UnboundLocalError: there is a pair of axes to rotate.", "quantifier": "all dimensions of input and output", "why_tests_cant": "one-dimensional data are not tested", "anchors": ["mdp/nodes/isfa_nodes.py: ISFANode._stop_training", "mdp/nodes/isfa_nodes.py: ISFANode._do_sweep"]}
{"id": "C437", "title": "max_iter of ISFANode", "statement": "The optimization ends after at most max_iter sweeps; a NodeException is raised only if the limit has not been reached by then.", "quantifier": "all matrices, limits, max_iter >= 1", "why_tests_cant": "convergence in the last sweep", "anchors": ["mdp/nodes/isfa_nodes.py: ISFANode._optimize"]}
{"id": "C438", "title": "A contrast of zero", "statement": "If a rotation with contrast zero (the perfect solution of TDSEP) is found for a pair of axes, the filters found have that contrast.", "quantifier": "all matrices, weights", "why_tests_cant": "exact zeros", "anchors": ["mdp/nodes/isfa_nodes.py: ISFANode._do_sweep"]}
{"id": "C439", "title": "RP and RPC", "statement": "RPC is orthogonal, the first output_dim columns of RPC are RP, the columns of RP are orthonormal, and the final covariance matrices are those of the data transformed by RPC.", "quantifier": "all matrices, dimensions, starting matrices RP, random choices", "why_tests_cant": "all data", "anchors": ["mdp/nodes/isfa_nodes.py: ISFANode._stop_training"]}
{"id": "C440", "title": "Components are ordered by slowness", "statement": "The outputs of ISFANode are ordered by their autocovariance for the first lag, largest first.", "quantifier": "all matrices, dimensions, starting matrices, random choices", "why_tests_cant": "all data", "anchors": ["mdp/nodes/isfa_nodes.py: ISFANode._stop_training"]}
{"id": "C441", "title": "Stored covariance matrices can be used again", "statement": "Training two nodes with the same arguments and the same stored covariance matrices gives the same filters.", "quantifier": "all covariance matrices and arguments", "why_tests_cant": "the matrices are not reused in tests", "anchors": ["mdp/nodes/isfa_nodes.py: ISFANode._stop_training, _fix_covs"]}
{"id": "C442", "title": "The recipe with stored covariance matrices", "statement": "stop_training(covs=covs) with a list of DelayCovarianceMatrix, as in the docstring, gives what the node learns from the same data itself.", "quantifier": "all covariance matrices and arguments", "why_tests_cant": "the recipe of the docstring is not run", "anchors": ["mdp/nodes/isfa_nodes.py: ISFANode._stop_training, _fix_covs"]}
{"id": "C443", "title": "Weights of ISFANode", "statement": "icaweights and sfaweights of the length of lags are used as given, the defaults are one for all lags and one for the first lag; a wrong length raises NodeException.", "quantifier": "all lags and weights", "why_tests_cant": "the error branches", "anchors": ["mdp/nodes/isfa_nodes.py: ISFANode.__init__"]}
{"id": "C444", "title": "white_comp and output_dim of ISFANode", "statement": "With whitened=False, white_comp components are kept by the whitening and output_dim of them are extracted.", "quantifier": "all values of whitened, white_comp, output_dim", "why_tests_cant": "all combinations", "anchors": ["mdp/nodes/isfa_nodes.py: ISFANode.__init__", "mdp/nodes/isfa_nodes.py: ISFANode._set_input_dim"]}
{"id": "C445", "title": "Arguments and attributes of TDSEPNode", "statement": "white_parm of TDSEPNode is passed to the WhiteningNode, and convergence is the number it is documented to be.", "quantifier": "all dictionaries and contrasts", "why_tests_cant": "the arguments are not tested", "anchors": ["mdp/nodes/ica_nodes.py: TDSEPNode.__init__, _stop_training"]}
{"id": "C446", "title": "execute and inverse of ISFANode", "statement": "For whitened data execute undoes inverse, and if all components are kept inverse undoes execute.", "quantifier": "all filters with orthonormal columns, data", "why_tests_cant": "all data", "anchors": ["mdp/nodes/isfa_nodes.py: ISFANode._execute, _inverse"]}
{"id": "C447", "title": "The number of neighbours of LLENode", "statement": "LLENode can be trained if, as its error message says, k is less than or equal to the number of training points; a greater k raises TrainingException.", "quantifier": "all data, k, r, output_dim", "why_tests_cant": "k equal to the number of points is not tested", "anchors": ["mdp/nodes/lle_nodes.py: LLENode._stop_training"]}
{"id": "C448", "title": "The neighbours of LLENode", "statement": "The neighbours of a training point are the k nearest other training points.", "quantifier": "all data, k", "why_tests_cant": "points which occur twice are not tested", "anchors": ["mdp/nodes/lle_nodes.py: LLENode._stop_training"]}
{"id": "C449", "title": "The weights of LLENode", "statement": "The weights of every training point sum to one, are zero for points which are not its neighbours, and minimize the regularized error of the reconstruction of the point among all weights which sum to one.", "quantifier": "all data, k, r >= 0 or None, output_dim; argsort sorts, solve solves or finds the matrix singular", "why_tests_cant": "all data and all weights", "anchors": ["mdp/nodes/lle_nodes.py: LLENode._stop_training"]}
{"id": "C450", "title": "LLENode does not depend on the scale of the data", "statement": "Moving, rotating or scaling the training data does not change the weights; moving, rotating or scaling training and test data does not change the output of execute.", "quantifier": "all data, similarity transformations, r", "why_tests_cant": "all transformations", "anchors": ["mdp/nodes/lle_nodes.py: LLENode._stop_training", "mdp/nodes/lle_nodes.py: LLENode._execute"]}
{"id": "C451", "title": "The embedding of LLENode", "statement": "The training projection has orthonormal columns, each centered and each with the least reconstruction cost among the centered vectors orthogonal to the columns before.", "quantifier": "all weight matrices with columns which sum to one and whose cost has the constants only as null space", "why_tests_cant": "all data and all vectors", "anchors": ["mdp/nodes/lle_nodes.py: LLENode._stop_training"]}
{"id": "C452", "title": "execute on training points", "statement": "execute maps a new point to the combination of the training projections of its k nearest training points with the best weights, and a training point to its training projection.", "quantifier": "all data, points, training projections, r", "why_tests_cant": "all data", "anchors": ["mdp/nodes/lle_nodes.py: LLENode._execute"]}
{"id": "C453", "title": "The regularization of LLENode", "statement": "Neither training (of different points) nor execute ends with a LinAlgError.", "quantifier": "all data, r > 0 or None, output_dim", "why_tests_cant": "all data", "anchors": ["mdp/nodes/lle_nodes.py: LLENode._stop_training", "mdp/nodes/lle_nodes.py: LLENode._execute"]}
{"id": "C454", "title": "The desired variance of LLENode", "statement": "The number of dimensions estimated at a point is the smallest number which keeps the desired fraction of the variance; output_dim is at least 1 and at most the number of singular values.", "quantifier": "all data, fractions v with 0 < v <= 1", "why_tests_cant": "all data and fractions", "anchors": ["mdp/nodes/lle_nodes.py: LLENode._adjust_output_dim"]}
{"id": "C455", "title": "HLLENode normalizes the embedding", "statement": "The coordinates of the training projection of HLLENode are normalized (unit length or unit variance).", "quantifier": "all data, all eigenvectors", "why_tests_cant": "the length is not tested", "anchors": ["mdp/nodes/lle_nodes.py: HLLENode._stop_training"]}
{"id": "C456", "title": "HLLENode makes the weights sum to 1", "statement": "The weights of the Hessian estimator sum to 1 for each quadratic form.", "quantifier": "all data, k, output_dim", "why_tests_cant": "the weights are not kept", "anchors": ["mdp/nodes/lle_nodes.py: HLLENode._stop_training"]}
{"id": "C457", "title": "The Gram-Schmidt step of HLLENode", "statement": "_mgs gives orthonormal columns, also if k is smaller than 1 + output_dim + output_dim*(output_dim+1)/2.", "quantifier": "all matrices", "why_tests_cant": "all matrices", "anchors": ["mdp/nodes/lle_nodes.py: _mgs", "mdp/nodes/lle_nodes.py: HLLENode._stop_training"]}
{"id": "C458", "title": "execute of LLENode treats the rows independently", "statement": "The output of execute for a row does not depend on the other rows.", "quantifier": "all data, r, rows", "why_tests_cant": "r=None is not tested with execute", "anchors": ["mdp/nodes/lle_nodes.py: LLENode._execute"]}
{"id": "C459", "title": "progressinfo does not change a loop", "statement": "Iterating over progressinfo(sequence) gives the values of the sequence in their order and ends normally.", "quantifier": "all sequences, sized or not, and lengths", "why_tests_cant": "empty sequences are not tested", "anchors": ["mdp/utils/progress_bar.py: progressinfo"]}
{"id": "C460", "title": "The progress bar keeps its length", "statement": "All bars drawn in a loop have the same length, one less than the width of the terminal, so each overwrites the one before.", "quantifier": "all fractions, layouts with delimiters and symbols of length one, positions, terminal widths", "why_tests_cant": "all fractions and widths", "anchors": ["mdp/utils/progress_bar.py: _progress, progressinfo"]}
{"id": "C461", "title": "The progress bar ends with 100%", "statement": "The fractions drawn for a sequence of n values are 0, 1/n, ..., 1, and the bar for 1 is full and shows 100%.", "quantifier": "all sequences and layouts", "why_tests_cant": "the output is not tested", "anchors": ["mdp/utils/progress_bar.py: _progress, progressinfo"]}
{"id": "C462", "title": "The remaining time", "statement": "The timer shows an estimate of the remaining time for every fraction greater than zero: for the mean speed the fraction done is that of the total time, for the last speed the remaining part takes as long as the last part per unit.", "quantifier": "all times, fractions", "why_tests_cant": "the function attributes survive between loops", "anchors": ["mdp/utils/progress_bar.py: _progress"]}
{"id": "C463", "title": "Labels of the support vector machines", "statement": "Normalizing labels gives 1 and -1, or 0, ..., n-1, reverting gives the labels back; more than two labels are refused in dual mode, unknown labels are refused.", "quantifier": "all sets of labels", "why_tests_cant": "all sets of labels", "anchors": ["mdp/nodes/svm_classifiers.py: _LabelNormalizer"]}
{"id": "C464", "title": "Readable sizes", "statement": "Every size in bytes is shown as a number which is at least 1 and less than the base with the right prefix; dig_node works for every node.", "quantifier": "all sizes", "why_tests_cant": "sizes at the borders of the prefixes are not tested", "anchors": ["mdp/utils/introspection.py: _memory_size_str", "mdp/utils/introspection.py: _format_dig"]}
{"id": "C465", "title": "Generated BiNode classes preserve the signature", "statement": "The __init__ of a generated BiNode class has the parameters of the original in the same order with the same defaults, and node_id and stop_result, and passes all on; a class can be generated for every signature.", "quantifier": "all signatures", "why_tests_cant": "only the signatures of the nodes of MDP occur", "anchors": ["bimdp/nodes/autogen.py: _binode_code"]}
{"id": "C466", "title": "The labels of compact_classes divide the classes into halves", "statement": "Every label of the training mode compact_classes is 1 for half of the samples and -1 for the others.", "quantifier": "all numbers J of binary digits, Jdes, class sizes, data", "why_tests_cant": "all J and Jdes", "anchors": ["mdp/nodes/gsfa_nodes.py: CovDCovMatrix.update_compact_classes"]}
{"id": "C467", "title": "The labels of compact_classes are uncorrelated", "statement": "Two different labels of the training mode compact_classes have correlation zero.", "quantifier": "all J, Jdes, class sizes", "why_tests_cant": "all J and Jdes", "anchors": ["mdp/nodes/gsfa_nodes.py: CovDCovMatrix.update_compact_classes"]}
{"id": "C468", "title": "The labels of compact_classes describe the classes", "statement": "Samples of a class have the same labels, different classes differ in one of the first J labels, and all labels of the first class are -1.", "quantifier": "all J, Jdes, class sizes", "why_tests_cant": "all J and Jdes", "anchors": ["mdp/nodes/gsfa_nodes.py: CovDCovMatrix.update_compact_classes"]}
{"id": "C469", "title": "The training graph of compact_classes", "statement": "compact_classes trains the complete graphs on the two halves of every label; the weights of the labels are positive and their sum is one, so every sample counts once in all.", "quantifier": "all J, Jdes < 2**J, class sizes, data, earlier training", "why_tests_cant": "all J and Jdes", "anchors": ["mdp/nodes/gsfa_nodes.py: CovDCovMatrix.update_compact_classes"]}
{"id": "C470", "title": "The number of labels of compact_classes", "statement": "Every Jdes which is accepted gives Jdes different labels which divide the classes; other numbers are refused.", "quantifier": "all J, Jdes", "why_tests_cant": "the greatest Jdes is not tested", "anchors": ["mdp/nodes/gsfa_nodes.py: CovDCovMatrix.update_compact_classes"]}
{"id": "C471", "title": "Block sizes of compact_classes", "statement": "The class size can be given as a number or as a list of equal sizes; unequal sizes, a number of samples which is no multiple of the size, and a number of classes which is no power of two raise ValueError, no size TrainingException.", "quantifier": "all sizes, data", "why_tests_cant": "the error branches", "anchors": ["mdp/nodes/gsfa_nodes.py: CovDCovMatrix.update_compact_classes"]}
{"id": "C472", "title": "iGSFANode combines slow features and principal components", "statement": "With reconstruct_with_sfa=False and scaling None or 'data_dependent', the output of iGSFANode is the first slow features of a GSFANode trained with the (expanded) data, times one factor (1 without scaling), followed by the first components of a PCANode trained with the same data.", "quantifier": "all training calls, weights and block sizes, expansions, thresholds, test data", "why_tests_cant": "all data", "anchors": ["mdp/nodes/gsfa_nodes.py: iGSFANode.multiple_train, _stop_training, _execute"]}
{"id": "C473", "title": "The number of slow features of iGSFANode", "statement": "A float delta_threshold keeps the slow features with delta at most the threshold, an int that many; there are never more than max_length_slow_part, output_dim or the expanded dimension.", "quantifier": "all training calls, thresholds, dimensions", "why_tests_cant": "all data and thresholds", "anchors": ["mdp/nodes/gsfa_nodes.py: iGSFANode._stop_training"]}
{"id": "C474", "title": "The output dimension of iGSFANode", "statement": "After a successful training execute gives output_dim columns, and inverse accepts them.", "quantifier": "all training calls, output_dim, thresholds", "why_tests_cant": "output_dim above the input dimension is not tested", "anchors": ["mdp/nodes/gsfa_nodes.py: iGSFANode._stop_training", "mdp/nodes/gsfa_nodes.py: iGSFANode._execute", "mdp/nodes/gsfa_nodes.py: iGSFANode.linear_inverse"]}
{"id": "C475", "title": "The inverse of iGSFANode uses the slow features", "statement": "inverse depends on the slow features of the output (reconstruct_with_sfa=False).", "quantifier": "all training calls, outputs", "why_tests_cant": "all data", "anchors": ["mdp/nodes/gsfa_nodes.py: iGSFANode.linear_inverse"]}
{"id": "C476", "title": "The inverse of iGSFANode is centered", "statement": "Without any deviation in the output, inverse gives the mean of the training data (reconstruct_with_sfa=False).", "quantifier": "all training calls", "why_tests_cant": "nodes which keep slow features only are not tested", "anchors": ["mdp/nodes/gsfa_nodes.py: iGSFANode.linear_inverse"]}
{"id": "C477", "title": "explained_var of iGSFANode", "statement": "With reconstruct_with_sfa=False the explained variance is that of the PCANode: the sum of its output_dim largest eigenvalues divided by the total variance.", "quantifier": "all training calls", "why_tests_cant": "all data", "anchors": ["mdp/nodes/gsfa_nodes.py: iGSFANode._stop_training"]}
{"id": "C478", "title": "A threshold which is too large", "statement": "An int delta_threshold above output_dim or max_length_slow_part raises ValueError in stop_training, and the node can not be finished afterwards.", "quantifier": "all training calls, thresholds", "why_tests_cant": "the error branches", "anchors": ["mdp/nodes/gsfa_nodes.py: iGSFANode._stop_training"]}
{"id": "C479", "title": "The verbose mode of iGSFANode", "statement": "verbose=True changes the messages only.", "quantifier": "all training calls", "why_tests_cant": "the verbose mode is not tested", "anchors": ["mdp/nodes/gsfa_nodes.py: iGSFANode._stop_training", "mdp/nodes/gsfa_nodes.py: GSFANode._stop_training"]}
{"id": "C480", "title": "iGSFANode with reconstruct_with_sfa=True is trained in one call", "statement": "The first successful train call finishes the training, further train and stop_training calls raise TrainingFinishedException; 'sensitivity_based' and 'QR_decomposition' need reconstruct_with_sfa=True and unknown methods raise.", "quantifier": "all training calls, methods", "why_tests_cant": "all data", "anchors": ["mdp/nodes/gsfa_nodes.py: iGSFANode._train"]}
{"id": "C481", "title": "The inverse of iGSFANode with reconstruct_with_sfa=True", "statement": "inverse(execute(x)) differs from x by the part of the residual of the regression on the slow features which is outside of the kept components; it is x if output_dim is the input dimension plus the number of slow features.", "quantifier": "all training data, expansions, scaling methods, x (also outside of the training data)", "why_tests_cant": "all data", "anchors": ["mdp/nodes/gsfa_nodes.py: iGSFANode._train", "mdp/nodes/gsfa_nodes.py: iGSFANode._execute", "mdp/nodes/gsfa_nodes.py: iGSFANode.linear_inverse"]}
{"id": "C482", "title": "explained_var of iGSFANode with reconstruct_with_sfa=True", "statement": "explained_var is one minus the squared error of inverse(execute(x)) on the training data divided by the total variance ('QR_decomposition', or 'sensitivity_based' with uncorrelated slow features).", "quantifier": "all training data", "why_tests_cant": "all data", "anchors": ["mdp/nodes/gsfa_nodes.py: iGSFANode._train", "mdp/nodes/gsfa_nodes.py: iGSFANode.linear_inverse"]}
{"id": "C483", "title": "The number of columns with QR_decomposition", "statement": "With reconstruct_with_sfa=True execute gives output_dim columns.", "quantifier": "all training data, output_dim at most input dimension plus number of slow features", "why_tests_cant": "more slow features than inputs are not tested with QR_decomposition", "anchors": ["mdp/nodes/gsfa_nodes.py: iGSFANode._train", "mdp/nodes/gsfa_nodes.py: iGSFANode._execute"]}
{"id": "C484", "title": "sensitivity_based scaling keeps all slow features", "statement": "With 'sensitivity_based' every slow feature which is kept contributes to the output, and its factor is not zero.", "quantifier": "all training data", "why_tests_cant": "features without linear relation to the input are not tested", "anchors": ["mdp/nodes/gsfa_nodes.py: iGSFANode._train", "mdp/nodes/gsfa_nodes.py: iGSFANode.linear_inverse"]}
{"id": "C485", "title": "OrderedDict keeps the order of insertion", "statement": "After any sequence of assignments, deletions and clear, iteration gives the keys in the order in which they were inserted (assigning to a key which is there keeps its place, inserting a deleted key again puts it at the end), reversed gives the reversed order, and items and length agree with it.", "quantifier": "all sequences of operations, all keys and values", "why_tests_cant": "all sequences of operations", "anchors": ["mdp/utils/_ordered_dict.py: OrderedDict"]}
{"id": "C486", "title": "popitem and deletion of OrderedDict", "statement": "popitem removes and returns the last (or with last=False the first) item and leaves the others in their order; popitem of an empty dictionary and deletion of a missing key raise KeyError, deletion of a key which is there succeeds.", "quantifier": "all sequences of operations, all keys", "why_tests_cant": "all sequences of operations", "anchors": ["mdp/utils/_ordered_dict.py: OrderedDict.popitem, __delitem__"]}
{"id": "C487", "title": "Copy and equality of OrderedDict", "statement": "A copy has the same items in the same order; two OrderedDicts are equal iff they have the same items in the same order.", "quantifier": "all sequences of operations", "why_tests_cant": "all sequences of operations", "anchors": ["mdp/utils/_ordered_dict.py: OrderedDict.copy, __eq__, __reduce__"]}
{"id": "C488", "title": "_version_too_old", "statement": "True is returned iff the version is smaller than the tuple of integers; None if the comparison reaches a part which is no integer.", "quantifier": "all versions and tuples", "why_tests_cant": "versions with fewer parts are not tested", "anchors": ["mdp/configuration.py: _version_too_old"]}
{"id": "C489", "title": "The registry of dependencies", "statement": "info() lists the last registration of every name, in the order of registration, with aligned names; has_<name> is true iff the last registration of the name was ExternalDepFound.", "quantifier": "all sequences of registrations, all orders of dir()", "why_tests_cant": "all sequences of registrations", "anchors": ["mdp/configuration.py: config"]}
{"id": "C490", "title": "The numerical backend", "statement": "If MDPNUMX names no backend, scipy is used if it can be imported, otherwise numpy, otherwise ImportError; if it names one, that or ImportError; other names raise ImportError. The backend is registered with its version.", "quantifier": "all values of MDPNUMX, all results of the imports", "why_tests_cant": "an empty MDPNUMX and missing modules are not tested", "anchors": ["mdp/configuration.py: get_numx"]}
{"id": "C491", "title": "set_configuration", "statement": "Every optional dependency is registered, in a fixed order, as available iff it can be imported, is not disabled by its environment variable, and its version is supported; a disabled dependency can not prevent mdp from being imported.", "quantifier": "all environments, all results of the imports", "why_tests_cant": "tests run in one environment", "anchors": ["mdp/configuration.py: set_configuration"]}
{"id": "C492", "title": "TemporaryDirectory removes its directory", "statement": "cleanup of a directory tree without links removes the directory with all its contents and nothing else.", "quantifier": "all file systems, trees, paths", "why_tests_cant": "all trees", "anchors": ["mdp/utils/temporarydir.py: TemporaryDirectory.cleanup, _rmtree"]}
{"id": "C493", "title": "cleanup can be called again", "statement": "A second cleanup does nothing, cleanup of a directory which is gone does nothing, and after an exception cleanup can be called again.", "quantifier": "all file systems", "why_tests_cant": "the error branches", "anchors": ["mdp/utils/temporarydir.py: TemporaryDirectory.cleanup"]}
{"id": "C494", "title": "TemporaryDirectory touches its own directory only", "statement": "cleanup removes the directory and everything contained in it, and nothing outside, or raises.", "quantifier": "all file systems, with links and protected directories", "why_tests_cant": "links and protected files are not tested", "anchors": ["mdp/utils/temporarydir.py: TemporaryDirectory._rmtree"]}
{"id": "C495", "title": "random_rot returns a rotation", "statement": "The result is orthogonal with determinant 1, if no first entry of a drawn vector is zero and no drawn vector is zero behind its first entry.", "quantifier": "all dimensions, all draws as above, over all real closed fields", "why_tests_cant": "all dimensions and draws", "anchors": ["mdp/utils/routines.py: random_rot"]}
{"id": "C496", "title": "random_rot for every draw", "statement": "The result is a rotation for every draw.", "quantifier": "all draws (zeros occur for integer dtypes)", "why_tests_cant": "zeros are not drawn in tests", "anchors": ["mdp/utils/routines.py: random_rot"]}
{"id": "C497", "title": "fixup_namespace changes __module__ of what is exported", "statement": "Exactly the private modules are changed, to the package: everything reachable from the exported names through public or special attributes of private objects, whose __module__ is one of old_modules and can be assigned, gets the name of the package; any other __module__ is left as it is, also if an exception is raised.", "quantifier": "all object graphs, with cycles; all names, old_modules, keep_modules", "why_tests_cant": "tests look at a few names", "anchors": ["mdp/utils/__init__.py:fixup_namespace, _fixup_namespace_item"]}
{"id": "C498", "title": "fixup_namespace terminates and removes the private modules", "statement": "For every finite object graph the recursion ends; afterwards the names of the old_modules which are not in keep_modules are gone from the module and all others are there. Names which are not accessible are skipped (docstring: if <mname>.<name> is accessible).", "quantifier": "all finite object graphs, with cycles; all names, old_modules, keep_modules", "why_tests_cant": "graphs with cycles and missing names are not tested", "anchors": ["mdp/utils/__init__.py:fixup_namespace"]}
{"id": "C499", "title": "Eta values", "statement": "get_eta_values(t) returns for every output t/(2 pi) times the root of its delta value on the training data, calls stop_training first iff the node is in training, hands on its exceptions, and can be repeated with the same or another t.", "quantifier": "all data, states of the node, t", "why_tests_cant": "all data", "anchors": ["mdp/nodes/sfa_nodes.py:SFANode.get_eta_values"]}
{"id": "C500", "title": "Eta values of a sine", "statement": "A sine which makes exactly N oscillations in a signal of length t has the eta value N (docstring).", "quantifier": "all N and t", "why_tests_cant": "tested only to few decimals with many samples", "anchors": ["mdp/nodes/sfa_nodes.py:SFANode.get_eta_values"]}
{"id": "C501", "title": "Tracing does not change what a node does", "statement": "A method of a decorated node returns iff it returns without the decoration, with the same result and the same data of the node, also when methods of the node call each other and handle exceptions; the callback gets one call for every traced call which returned a value, in the order in which they returned, with its arguments and result.", "quantifier": "all classes of nodes, methods, arguments, states; all traced methods", "why_tests_cant": "all classes of nodes", "anchors": ["bimdp/inspection/tracer.py:InspectionHTMLTracer._standard_tracer_decorate"]}
{"id": "C502", "title": "Tracing leaves the nodes as they were", "statement": "Undecorating a decorated node restores all its attributes, undecorating another node does nothing, and after trace_execution every node of a flow of different nodes, in any nesting of flow nodes and layers, is as before.", "quantifier": "all nodes, flows without CloneLayers", "why_tests_cant": "all attributes and nestings", "anchors": ["bimdp/inspection/tracer.py:InspectionHTMLTracer._standard_tracer_undecorate, TraceDecorationVisitor, trace_execution"]}
{"id": "C503", "title": "A flow can be traced again", "statement": "After trace_execution raised an exception the flow can be used and traced again.", "quantifier": "all flows, exceptions", "why_tests_cant": "no test traces a flow after an exception", "anchors": ["bimdp/inspection/tracer.py:InspectionHTMLTracer.trace_execution"]}
{"id": "C504", "title": "Tracing the training of a CloneLayer", "statement": "Training a CloneLayer while it is traced gives the same node as training it without tracing.", "quantifier": "all nodes, data, numbers of clones", "why_tests_cant": "the tests do not compare traced and untraced training", "anchors": ["bimdp/inspection/tracer.py:TraceDecorationVisitor._visit_clonelayer"]}
{"id": "C505", "title": "SenderBiNode addresses its recipient", "statement": "execute returns x (None if no_x is set) and a message with x under the key msg_x, which is read by the node with the recipient_id only, or by the next node if there is no recipient.", "quantifier": "all ids, data", "why_tests_cant": "ids with the separator are not tested", "anchors": ["bimdp/nodes/miscnodes.py:SenderBiNode._execute"]}
{"id": "C506", "title": "One slide for every traced call", "statement": "After an execution without exception the files are numbered from zero, one for every call of the callback, each with the id of its node; either all slides have a section id or none, otherwise an exception is raised; all files are closed.", "quantifier": "all executions of flows, all results of write_html", "why_tests_cant": "the mixture of section ids is not tested", "anchors": ["bimdp/inspection/tracer.py:InspectionHTMLTracer._tracer_callback, trace_execution"]}
{"id": "C507", "title": "Exceptions while tracing with debug", "statement": "With debug=True an exception during the execution is reported as a TraceDebugException with the slides written so far and an error slide; without it the exception is handed on.", "quantifier": "all executions of flows with an exception", "why_tests_cant": "the debug mode is not tested", "anchors": ["bimdp/inspection/tracer.py:InspectionHTMLTracer._write_error_frame, trace_execution"]}
{"id": "C508", "title": "Snapshots are read in the order of the training", "statement": "_trace_biflow_training reads every snapshot of prepare_training_inspection once, in the order in which they were taken, for any order in which the file system lists them.", "quantifier": "all numbers of snapshots, all listings", "why_tests_cant": "tests use few snapshots", "anchors": ["bimdp/inspection/tracer.py:prepare_training_inspection, _trace_biflow_training"]}
{"id": "C509", "title": "Every slide of a training has its section", "statement": "TrainHTMLSlideShow has one section id for every slide, which is that of its node, phase and part (train or stop) of the training.", "quantifier": "all index tables of a training: numbers of nodes, phases, slides", "why_tests_cant": "the section ids are not tested", "anchors": ["bimdp/inspection/slideshow.py:TrainHTMLSlideShow.__init__", "bimdp/inspection/tracer.py:_trace_biflow_training"]}
{"id": "C510", "title": "Peeking does not consume", "statement": "For any sequence of peek and next on a PeekIterator, next returns the elements in their order, peek the one which the following next returns, both raise StopIteration at the end; first_iterable_elem returns the first element and an iterable with all elements.", "quantifier": "all iterators, sequences of calls", "why_tests_cant": "all sequences of calls", "anchors": ["bimdp/inspection/utils.py:PeekIterator, first_iterable_elem"]}
{"id": "C511", "title": "The controls of a slideshow with sections end", "statement": "Every sequence of clicks on the controls of a slideshow (first, previous, next, last, start/stop, next and previous section, selection of a slide, timer) ends, with a slide of the slideshow, and the section which is highlighted is that of the slide. First, last, next, previous, the timer and start/stop lead to the slide which their names say; at the ends they wrap if loop is set, otherwise next and previous stay, the timer stops and start begins anew. The ids can be a string or a number (docstring).", "quantifier": "all lists of section ids, all sequences of clicks, loop on or off", "why_tests_cant": "the JavaScript is not tested", "anchors": ["mdp/utils/slideshow.py:SectionHTMLSlideShow.__init__, js_update_template", "mdp/utils/slideshow.py:HTMLSlideShow.template"]}
{"id": "C512", "title": "Next and previous section", "statement": "The button for the next section goes to the first following slide, cyclically, of another section; that for the previous section to the first slide of the section of the nearest preceding slide, cyclically, of another section; with one section only both do nothing.", "quantifier": "all lists of section ids, all slides", "why_tests_cant": "the JavaScript is not tested", "anchors": ["mdp/utils/slideshow.py:SectionHTMLSlideShow.js_update_template"]}
{"id": "C513", "title": "The controls of the slideshow of a training end", "statement": "Every sequence of clicks on the controls of a TrainHTMLSlideShow ends.", "quantifier": "all index tables of a training, all sequences of clicks", "why_tests_cant": "the JavaScript is not tested", "anchors": ["bimdp/inspection/slideshow.py:TrainHTMLSlideShow.__init__", "mdp/utils/slideshow.py:SectionHTMLSlideShow.js_update_template"]}
{"id": "C514", "title": "Parameters of LibSVMClassifier", "statement": "set_kernel and set_classifier accept the documented names in upper or lower case and change their parameter only; other names raise TypeError and change nothing. The constructor sets the given params, then kernel, classifier and probability where they are not in params, and keeps the default elsewhere; an unknown name in params raises an exception, an unknown kernel or classifier TypeError.", "quantifier": "all names, params, defaults of the library", "why_tests_cant": "all names and combinations", "anchors": ["mdp/nodes/libsvm_classifier.py:LibSVMClassifier.__init__, set_kernel, set_classifier"]}
{"id": "C515", "title": "Probabilities of LibSVMClassifier", "statement": "prob returns one dictionary per row, with the value of the library for each label of the model and no other key.", "quantifier": "all labels, rows, values", "why_tests_cant": "all labels and rows", "anchors": ["mdp/nodes/libsvm_classifier.py:LibSVMClassifier._prob"]}
{"id": "C516", "title": "Links to the sections", "statement": "The panel of a slideshow with sections has one link for the first slide of every section, with its section id, in the order of the slides, and nothing else.", "quantifier": "all lists of section ids", "why_tests_cant": "the HTML is not tested", "anchors": ["mdp/utils/slideshow.py:SectionHTMLSlideShow.html_controls_template"]}
{"id": "C517", "title": "Elements of the panel have different ids", "statement": "The elements written for the links to the sections have different HTML ids, so that updateSlide highlights the link of the section shown.", "quantifier": "all lists of section ids", "why_tests_cant": "the HTML is not tested", "anchors": ["mdp/utils/slideshow.py:SectionHTMLSlideShow.html_controls_template, js_update_template"]}
{"id": "C518", "title": "Every sklearn algorithm is wrapped once", "statement": "apply_to_scikits_algorithms ends for every finite set of modules which import each other, and calls the action exactly once for every class with fit, predict or transform which is a public member of a module that can be reached through public members and modules of sklearn, and for nothing else; it returns all such classes (docstring).", "quantifier": "all finite graphs of modules, with cycles; all members", "why_tests_cant": "depends on the installed version of sklearn", "anchors": ["mdp/nodes/scikits_nodes.py:apply_to_scikits_algorithms"]}
