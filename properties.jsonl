{"id": "C01", "title": "Output references parse back to what was written", "statement": "An output reference written as [input_name-]object[.output][:delay] is decomposed into exactly the input name, object name, output name and integer delay it was assembled from (missing parts are None, missing delay is 0); a reference with a repeated \":\" \"-\" or \".\" separator in the relevant field, or a non-integer delay, is rejected with an error and never silently truncated.", "quantifier": "all input/object/output names without separator characters and all integer delays; all strings for the rejection half", "why_tests_cant": "names and delays are unbounded; a test only samples a few reference strings", "anchors": ["specula/simul.py:Simul.split_output", "specula/simul.py:Simul.output_owner", "specula/simul.py:Simul.output_delay"]}
{"id": "C02", "title": "An object triggers after everything it needs in the same step", "statement": "Whenever a trigger order is produced, each scheduled object that has an undelayed input coming from another declared object is placed strictly later, and in a strictly larger trigger-order index, than that producer, and the producer is itself scheduled.", "quantifier": "all parameter dictionaries (any number of objects, inputs, lists of inputs, delays) for which build_trigger_order returns", "why_tests_cant": "the set of configuration graphs is infinite; tests cover a few fixed YAML files", "anchors": ["specula/simul.py:Simul.build_trigger_order", "specula/simul.py:Simul.is_leaf", "specula/simul.py:Simul.remove_inputs"]}
{"id": "C03", "title": "Trigger-order computation terminates and never duplicates or invents objects", "statement": "build_trigger_order always terminates; when it succeeds each object appears at most once, only declared objects appear, the index list has the same length, is non-decreasing and starts at 0 when non empty.", "quantifier": "all parameter dictionaries", "why_tests_cant": "termination and uniqueness concern every graph including cyclic ones", "anchors": ["specula/simul.py:Simul.build_trigger_order"]}
{"id": "C04", "title": "A delayed consumer runs before the producer overwrites its output", "statement": "Whenever a trigger order is produced, every declared object that reads the output of a scheduled object with a negative delay is itself scheduled, earlier in the order, and with a trigger index not larger than that of the producer.", "quantifier": "all parameter dictionaries for which build_trigger_order returns", "why_tests_cant": "a wrong order only changes values on particular graphs; no test enumerates graphs", "anchors": ["specula/simul.py:Simul.build_trigger_order", "specula/simul.py:Simul.has_delayed_output"]}
{"id": "C05", "title": "A schedulable configuration is always scheduled completely", "statement": "If there is any assignment of objects to steps that satisfies all same-step dependencies and lets delayed consumers go before producers, build_trigger_order returns without error and schedules every object.", "quantifier": "all parameter dictionaries with well-formed references to declared objects and non-positive delays that admit a valid ranking", "why_tests_cant": "completeness quantifies over all graphs and all candidate schedules", "anchors": ["specula/simul.py:Simul.build_trigger_order"]}
{"id": "C06", "title": "Objects are left out of the schedule only because of a same-step cycle", "statement": "When a trigger order is returned, an object is missing from it only if it has an undelayed input from another missing object, so that following such inputs from a missing object never leaves the set of missing objects (an algebraic loop); conversely no object of an algebraic loop is ever scheduled.", "quantifier": "all parameter dictionaries for which build_trigger_order returns", "why_tests_cant": "cycles may be arbitrarily long and are combined with any other graph", "anchors": ["specula/simul.py:Simul.build_trigger_order"]}
{"id": "C07", "title": "Results do not depend on the order objects are listed in the configuration", "statement": "If two trigger orders both respect the ordering guarantees, the values of all outputs after every iteration are identical; in particular reordering the objects of the configuration file does not change simulation results.", "quantifier": "all configurations, all object behaviours, all numbers of iterations, all permutations of the object list", "why_tests_cant": "permutations and behaviours are unbounded", "anchors": ["specula/simul.py:Simul.build_trigger_order", "specula/loop_control.py:LoopControl.iter"]}
{"id": "C08", "title": "Referenced objects are built before the objects that refer to them", "statement": "The construction order lists every declared object exactly once, and every object named in a *_ref parameter (single or list) appears before the object that holds the reference. Such an order is found whenever all references resolve and are not circular; a circular reference is never accepted.", "quantifier": "all parameter dictionaries whose _ref parameters resolve to declared objects without reference cycles", "why_tests_cant": "arbitrary dependency depth", "anchors": ["specula/simul.py:Simul.build_order"]}
{"id": "C09", "title": "Combining parameter files adds, overrides and removes exactly what is named", "statement": "Combining an additional parameter dictionary with the current one removes exactly the objects listed under \"remove\" together with every input coming from them, replaces exactly the parameters listed under NAME_override in object NAME, adds the new objects, and leaves all other objects and parameters untouched; it fails if a removed or overridden object does not exist or an added one already exists; entries with a _N suffix take effect only when N is the simulation index, under the stripped name.", "quantifier": "all pairs of parameter dictionaries and simulation indexes", "why_tests_cant": "the interaction of removals, overrides and numbered entries over arbitrary dictionaries cannot be enumerated", "anchors": ["specula/simul.py:Simul.combine_params", "specula/simul.py:Simul.remove_inputs"]}
{"id": "C10", "title": "Command-line overrides change only the named parameter", "statement": "An override obj.param or obj.param.key sets exactly that entry, leaves every other entry as it was, and any other dotted form is rejected.", "quantifier": "all parameter dictionaries and override sets", "why_tests_cant": "frame property over unbounded dictionaries", "anchors": ["specula/simul.py:Simul.apply_overrides"]}
{"id": "C11", "title": "A run executes every time step exactly once", "statement": "A run with step dt>0 and duration T>0 starting at t0 executes exactly ceil(T/dt) iterations, at times t0, t0+dt, t0+2dt, ..., each object being asked about readiness exactly once per iteration in trigger-index order, and finalizes every object exactly once after the last iteration.", "quantifier": "all dt>0, T, t0 in integer nanoseconds and all object lists", "why_tests_cant": "times and durations are unbounded integers", "anchors": ["specula/loop_control.py:LoopControl.run", "specula/loop_control.py:LoopControl.iter"]}
{"id": "C12", "title": "The loop knows which iteration is the last one", "statement": "The iteration that the loop treats as the last one (and for which delayed outputs are not sent) is the last executed iteration.", "quantifier": "all dt, T, t0 and successive runs of the same loop", "why_tests_cant": "depends on arithmetic relations between unbounded integers", "anchors": ["specula/loop_control.py:LoopControl.niters", "specula/loop_control.py:LoopControl.iter"]}
{"id": "C13", "title": "An object triggers in an iteration exactly when one of its inputs was refreshed", "statement": "In each iteration an object runs its computation iff it has no inputs, or all its inputs are optional and unconnected, or at least one connected input (or item of an input list) carries a generation time not older than the current time; otherwise its outputs and their generation times are left untouched.", "quantifier": "all objects, inputs, generation times and times", "why_tests_cant": "quantifies over all input sets and histories", "anchors": ["specula/base_processing_obj.py:BaseProcessingObj.checkInputTimes", "specula/base_processing_obj.py:BaseProcessingObj.check_ready"]}
{"id": "C14", "title": "Life-cycle methods are only called in their legal order", "statement": "In every run the loop never calls an object computation or its post-trigger step without a preceding positive readiness check in the same iteration, so the guard errors of trigger and post_trigger are unreachable, and the readiness flag of every object is down at the end of each iteration.", "quantifier": "all runs: all object lists, behaviours and iteration counts", "why_tests_cant": "call-order invariant over all histories", "anchors": ["specula/loop_control.py:LoopControl.iter", "specula/base_processing_obj.py:BaseProcessingObj.trigger", "specula/base_processing_obj.py:BaseProcessingObj.post_trigger"]}
{"id": "C15", "title": "A simulation step has synchronous data-flow semantics", "statement": "Along the execution produced by the loop with the computed trigger order, at every iteration each object sees, for each undelayed input, the value its producer has at the end of the same iteration, and for each delayed input the value its producer had at the end of the previous iteration (the initial value at the first iteration).", "quantifier": "all configurations accepted by build_trigger_order, all object behaviours and states, all numbers of iterations", "why_tests_cant": "the executions are infinite in number and length", "anchors": ["specula/simul.py:Simul.build_trigger_order", "specula/loop_control.py:LoopControl.iter", "specula/base_processing_obj.py:BaseProcessingObj.get_all_inputs"]}
{"id": "C16", "title": "Splitting a simulation over processes does not change its results", "statement": "For every assignment of the processing objects to processes and every interleaving of the processes, each object goes through the same sequence of states and outputs as in the single-process run, provided that each output read by another process is a single data object (not a list), that setup() does not change outputs read by other processes without delay, and that the run lasts a whole, positive number of steps. Without these conditions the results can differ.", "quantifier": "all assignments of objects to ranks, all schedules, all behaviours, any number of iterations", "why_tests_cant": "schedules are nondeterministic and exponentially many", "anchors": ["specula/base_processing_obj.py:BaseProcessingObj.send_outputs", "specula/connections.py:_InputItem.get", "specula/simul.py:Simul.connect", "specula/loop_control.py:LoopControl.iter"]}
{"id": "C17", "title": "A distributed run never deadlocks", "statement": "In every reachable state of a distributed run (under the conditions of C16), if some process has not finished then some process can take a step; every execution has the same finite length and no process raises an exception that the single-process run does not raise. When the duration is not a multiple of the time step a deadlock can occur.", "quantifier": "all assignments of objects to ranks and all reachable states", "why_tests_cant": "absence of deadlock over all schedules cannot be tested", "anchors": ["specula/connections.py:_InputItem.get", "specula/base_processing_obj.py:BaseProcessingObj.send_outputs", "specula/loop_control.py:LoopControl.start"]}
{"id": "C18", "title": "Every message sent in a distributed run is consumed", "statement": "When all processes have finished the iterations of a run (under the conditions of C16), all message channels are empty, both for undelayed and for delayed connections. Outputs that are lists of data objects, or runs without iterations, leave messages behind.", "quantifier": "all assignments of objects to ranks and all complete executions", "why_tests_cant": "message balance must hold for any iteration count and any graph", "anchors": ["specula/base_processing_obj.py:BaseProcessingObj.send_outputs", "specula/loop_control.py:LoopControl.iter"]}
{"id": "C19", "title": "Sender and receiver always agree on the wire format", "statement": "On every remote connection whose output is missing for a while and then an array of fixed size (or a scalar from the beginning), sender and receiver choose the same transfer mode (whole object or raw buffer plus time stamp) for every message, and every receive yields the value and time of the object sent; if nothing but the value changes the received object is identical to the one sent. Values that first are missing and then scalars, arrays that change size, and other attributes that change are not transmitted correctly.", "quantifier": "all sequences of values put on an output over a run", "why_tests_cant": "the mode depends on the complete history of the value on both sides", "anchors": ["specula/base_processing_obj.py:BaseProcessingObj.send_remote_output", "specula/connections.py:_InputItem.receive_new_value"]}
{"id": "C20", "title": "Different connections use different message tags", "statement": "Two different remote connections never share a message tag. (False: any function to 10^6 tags collides for some pair of connections; only the hashed strings are different, and only if no name contains a percent sign.)", "quantifier": "all sets of connections", "why_tests_cant": "hash collisions need a search over all names", "anchors": ["specula/simul.py:computeTag"]}
{"id": "C21", "title": "Connections are type-checked, flattened in order and unique where required", "statement": "An input accepts a connected object only if it has the declared type; an input list delivers the connected objects in connection order with nested lists flattened; a single-valued input delivers the connected object when exactly one is connected, fails when more than one is, and fails with none unless optional.", "quantifier": "all sequences of set/append operations with arbitrarily nested lists", "why_tests_cant": "operation sequences and nestings are unbounded", "anchors": ["specula/connections.py:InputList", "specula/connections.py:InputValue", "specula/lib/utils.py:flatten"]}
{"id": "C22", "title": "A cross-device input always carries the current producer data", "statement": "After an input living on a different device is fetched, the local copy has the same array attributes and generation time as the producer, for every history in which arrays keep their size; all other attributes remain those of the first fetch.", "quantifier": "all producer objects, all histories of producer updates between fetches", "why_tests_cant": "attribute updates happen in any order over any number of steps", "anchors": ["specula/connections.py:_InputItem.get", "specula/base_data_obj.py:BaseDataObj.transferDataTo", "specula/base_data_obj.py:BaseDataObj.copyTo"]}
{"id": "C23", "title": "Simulation times survive conversion to seconds and back", "statement": "Converting an integer nanosecond time (below 2^52 ns) to seconds and back returns the time or one nanosecond less; it is exact for times from a power of two up to 1.86 times that power; seconds written with up to nine decimals behave the same; a run of n exact time steps has n iterations. (Exactness for all times is false: 15 ns become 14 ns; 1.001 s becomes 1000999999 ns.)", "quantifier": "all integer times below 2^52 ns (52 days)", "why_tests_cant": "floating-point rounding depends on each of 2^63 values", "anchors": ["specula/base_time_obj.py:BaseTimeObj.t_to_seconds", "specula/base_time_obj.py:BaseTimeObj.seconds_to_t"]}
{"id": "C24", "title": "A filter with an integer delay outputs the undelayed command of exactly that many steps ago", "statement": "For a filter with integer delay d, the delayed output at every step equals the undelayed output d steps earlier, and zero during the first d steps.", "quantifier": "all delays, all channel counts, all input sequences, any filter law", "why_tests_cant": "delays and sequences are unbounded", "anchors": ["specula/processing_objects/base_filter.py:BaseFilter"]}
{"id": "C25", "title": "A fractional filter delay interpolates linearly between the two neighbouring integer delays", "statement": "With delay d=n-1+f, 0<f<1, the delayed output is f*(output n steps ago)+(1-f)*(output n-1 steps ago).", "quantifier": "all fractional delays and input sequences", "why_tests_cant": "continuum of delays, unbounded sequences", "anchors": ["specula/processing_objects/base_filter.py:BaseFilter.post_trigger"]}
{"id": "C26", "title": "The IIR filter implements its difference equation", "statement": "At every step and for every channel, sum_j den_j*y(k-j) = sum_j num_j*gain_mod(k)*u(k-j) with zero initial conditions, in terms of the input and output sequences only.", "quantifier": "all coefficient tables of any order, all gain modulations, all input sequences", "why_tests_cant": "filter orders and sequence lengths are unbounded", "anchors": ["specula/processing_objects/iir_filter.py:IirFilter.trigger_code"]}
{"id": "C27", "title": "The integrator accumulates its input with gain and forgetting factor", "statement": "For an integrator with gain g and forgetting factor ff the output after k steps is sum_i g*ff^(k-i)*u(i); with ff=1 it is g times the sum of inputs.", "quantifier": "all gains, forgetting factors, mode counts and input sequences", "why_tests_cant": "closed form must hold for any length of history", "anchors": ["specula/processing_objects/integrator.py:Integrator", "specula/data_objects/iir_filter_data.py:IirFilterData.from_gain_and_ff"]}
{"id": "C28", "title": "Filters are linear", "statement": "The response of a filter to a linear combination of two input sequences is the same linear combination of the two responses, delay included.", "quantifier": "all filters, sequences and coefficients", "why_tests_cant": "infinitely many sequences", "anchors": ["specula/processing_objects/iir_filter.py", "specula/processing_objects/base_filter.py"]}
{"id": "C29", "title": "Filter channels are independent", "statement": "The output history of one channel depends only on the input history, gain history and coefficients of that channel.", "quantifier": "all filters, channels, input sequences", "why_tests_cant": "non-interference relates pairs of executions", "anchors": ["specula/processing_objects/iir_filter.py", "specula/processing_objects/base_filter.py"]}
{"id": "C30", "title": "Resetting a filter returns it to its initial state", "statement": "After a reset, the filter produces the same outputs as a newly built filter for every subsequent input sequence.", "quantifier": "all filters, all histories before the reset and all inputs after it", "why_tests_cant": "residual state depends on unbounded history", "anchors": ["specula/processing_objects/base_filter.py:BaseFilter.reset_states", "specula/processing_objects/iir_filter.py:IirFilter.reset_states", "specula/processing_objects/multirate_complementary_filter.py"]}
{"id": "C31", "title": "The delay transfer function matches the delay line", "statement": "The discrete delay transfer function used for stability analysis, run as a difference equation, produces the same sequence as the delay line of the filter.", "quantifier": "all integer and fractional delays and all sequences", "why_tests_cant": "must hold for each delay and sequence", "anchors": ["specula/data_objects/iir_filter_data.py:IirFilterData.discrete_delay_tf", "specula/processing_objects/base_filter.py"]}
{"id": "C32", "title": "The state-space filter follows its recursion", "statement": "The state-space filter output satisfies x(k+1)=A x(k)+B u(k), y = C x + D u from the zero initial state, and equals its impulse-response convolution.", "quantifier": "all matrices and input sequences", "why_tests_cant": "unbounded sequences and sizes", "anchors": ["specula/processing_objects/ssr_filter.py:SsrFilter.trigger_code"]}
{"id": "C33", "title": "The multirate filter rejects unsynchronised sensors and zero-stuffs slow ones", "statement": "The multirate complementary filter raises an error exactly when a slow sensor is not refreshed on a frame on which it is due or is refreshed on one on which it is not, and otherwise uses each slow measurement exactly once per slow period.", "quantifier": "all rate ratios and refresh histories", "why_tests_cant": "histories are unbounded", "anchors": ["specula/processing_objects/multirate_complementary_filter.py"]}
{"id": "C34", "title": "Windowed integration outputs the average over the window", "statement": "At each emission the output of the windowed integrator equals the sum of the inputs of the steps in the window weighted by loop_dt/dt, each input step contributing to exactly one window.", "quantifier": "all window lengths, start times, input sequences", "why_tests_cant": "unbounded sequences", "anchors": ["specula/processing_objects/windowed_integration.py"]}
{"id": "C35", "title": "Windowed integration emits exactly once per window", "statement": "Starting at a non-negative start time that is a multiple of the loop step, emissions happen exactly at the last step of each window of length dt, and the output is zero in between; a start time that is not a multiple of the loop step is accepted and then nothing is ever emitted.", "quantifier": "all dt multiple of the loop step, all times", "why_tests_cant": "modular-arithmetic property over all times", "anchors": ["specula/processing_objects/windowed_integration.py"]}
{"id": "C36", "title": "Detector frames are emitted on exposure boundaries and contain the exposure only", "statement": "A detector with exposure dt emits a frame exactly at the end of each exposure, accumulating each intensity of the exposure exactly once with the proper time weight, and starts the next exposure from zero.", "quantifier": "all exposure times, start times and intensity sequences", "why_tests_cant": "unbounded sequences", "anchors": ["specula/processing_objects/ccd.py:CCD"]}
{"id": "C37", "title": "A scheduled value holds from its switch time on", "statement": "For switch times in increasing order, the schedule generator outputs, at time t, for every mode the value of its group in value set i, where i is the number of switch times not later than t; ill-sized schedules are rejected.", "quantifier": "all schedules and times", "why_tests_cant": "all time values", "anchors": ["specula/processing_objects/schedule_generator.py"]}
{"id": "C38", "title": "A time history is played back row by row and holds its last row", "statement": "At the k-th step the time-history generator outputs row min(k, n-1).", "quantifier": "all histories and step numbers", "why_tests_cant": "unbounded step numbers", "anchors": ["specula/processing_objects/time_history_generator.py"]}
{"id": "C39", "title": "The push-pull sequence pokes one mode at a time with the right sign and length", "statement": "Each row of the generated push-pull history has at most one non-zero mode; the rows of each mode follow its pattern scaled by its amplitude for the requested number of samples and cycles, and for a push-pull pattern each mode sums to zero.", "quantifier": "all numbers of modes, amplitudes, patterns, cycles and samples", "why_tests_cant": "combinatorial parameter space", "anchors": ["specula/lib/modal_pushpull_signal.py", "specula/processing_objects/push_pull_generator.py"]}
{"id": "C40", "title": "Downsampled storage keeps exactly every N-th received sample", "statement": "Without splitting, a run of a store with downsampling factor N for an input saves exactly the samples number 0, N, 2N, ... received since the start time, with their times; when N > 1, the number of received samples is a multiple of N and the last call brought a sample, that last sample is saved in addition.", "quantifier": "all factors and all sequences of received samples", "why_tests_cant": "unbounded histories", "anchors": ["specula/processing_objects/data_store.py:DataStore"]}
{"id": "C41", "title": "Split storage saves the samples of complete chunks exactly once", "statement": "When storage is split into chunks of s >= 2 calls without downsampling, the saved chunks contain, once and in order, exactly the samples of the first s*floor((n+1)/s) of the n calls of the run, so that nothing is lost when n mod s is 0 or s-1; with s = 1 the samples of the last call are saved twice.", "quantifier": "all split sizes and run lengths", "why_tests_cant": "depends on divisibility for unbounded lengths", "anchors": ["specula/processing_objects/data_store.py:DataStore.trigger_code", "specula/processing_objects/data_store.py:DataStore.finalize"]}
{"id": "C42", "title": "Stored time stamps are exact", "statement": "The time stamps written with stored data are exactly the times of the samples for FITS files (times below 2^64 ns) and, for pickle files, up to 2^53 ns in double and 2^24 ns in single precision; beyond that the relative error is at most 2^-53 or 2^-24.", "quantifier": "all times and storage formats", "why_tests_cant": "float rounding on large integers", "anchors": ["specula/processing_objects/data_store.py:DataStore.save_pickle", "specula/processing_objects/data_store.py:DataStore.save_fits"]}
{"id": "C43", "title": "A new run never writes into an existing result folder", "statement": "The result folder chosen for a run does not exist beforehand.", "quantifier": "all directory contents", "why_tests_cant": "any set of pre-existing folders", "anchors": ["specula/processing_objects/data_store.py:DataStore.create_TN_folder"]}
{"id": "C44", "title": "A data buffer emits all buffered samples in order", "statement": "Every buffer_size triggers the data buffer emits, for each input, the samples received since the last emission in order, and at the end of the run it emits the remaining ones; no sample is lost or duplicated.", "quantifier": "all buffer sizes and input histories", "why_tests_cant": "unbounded histories", "anchors": ["specula/processing_objects/data_buffer.py:DataBuffer"]}
{"id": "C45", "title": "Stored data are replayed at the times they were recorded", "statement": "A data source reading back a stored series outputs, at each recorded time, the value recorded at that time and is not refreshed at other times, whenever the file format represents the recorded times exactly.", "quantifier": "all recorded series", "why_tests_cant": "unbounded series", "anchors": ["specula/processing_objects/data_source.py:DataSource", "specula/processing_objects/data_store.py:DataStore"]}
{"id": "C46", "title": "A replay configuration reads every stored signal from the store", "statement": "With one data store, the replay configuration contains a data source with the stored outputs in place of the store and of the objects whose outputs it stores; every input equal to a stored output refers to the data source instead; all other parameters are unchanged. If the outputs of removed objects that are still used are all stored and are read without delay and not within a list, no remaining input refers to a removed object; each of these conditions is needed, and with several stores only the last is replaced.", "quantifier": "all configurations with one data store and no object called data_source", "why_tests_cant": "all graphs and store contents", "anchors": ["specula/simul.py:Simul.build_replay", "specula/simul.py:Simul.data_store_to_data_source"]}
{"id": "C47", "title": "Slicing returns exactly the requested elements", "statement": "The slicer output consists exactly of the input elements start+i*step before stop with Python's conventions for negative and missing bounds, or of the explicitly listed elements in the listed order (negative indices counting from the end, others rejected with IndexError); giving both selectors is rejected. The length announced before the first trigger equals the length of all outputs when 0<=start<=stop<=size and step>0 (not for a stop beyond the input or a negative step). Outputs of index lists and of the full copy are snapshots of the input; outputs of slices follow later changes of the input array.", "quantifier": "all slices and vectors", "why_tests_cant": "all sizes and strides", "anchors": ["specula/processing_objects/base_slicer.py"]}
{"id": "C48", "title": "Inserting places each input at its slice and leaves the rest at zero", "statement": "After a trigger of the inserter every output position named by a pair holds the element of the latest input assigned to it by the last pair naming it; positions named by no pair stay zero at all times; the output size never changes; a trigger is accepted exactly when all named positions exist and sizes agree or a single element is repeated; exactly one of the two selectors must be given.", "quantifier": "all slice sets and vectors", "why_tests_cant": "all sizes and overlaps", "anchors": ["specula/processing_objects/base_inserter.py"]}
{"id": "C49", "title": "Element-wise operations compute the documented result", "statement": "The operation object outputs at every step the documented element-wise combination of the latest inputs, including concatenation and remapped positions; a second operand of constant shorter size is completed with 1 for division and 0 for the other operations, which leaves the remaining elements unchanged for division, sum and subtraction (but sets them to zero for the product); of several constants only the first in the order product, sum, maximum, minimum is used. If the size of the shorter operand varies, old elements are used again.", "quantifier": "all vectors, sizes, operations", "why_tests_cant": "all sizes and values, including persistence of padding across steps", "anchors": ["specula/processing_objects/base_operation.py"]}
{"id": "C50", "title": "The command combinators place every command in its documented slot", "statement": "For command vectors of the configured sizes the mirror-commands combinator outputs low orders, focus and high orders of the first mirror plus the scaled third low-order chunk and the projected P commands, the second high-order chunk, and the third low- and high-order chunks; the linear combination accepts exactly the documented number of inputs and outputs tip-tilt, focus, the other orders, the plate-scale modes and LIFT in the documented places. Longer commands are cut without an error, and a configuration with a second low-order chunk is rejected at the first trigger.", "quantifier": "all sizes of command vectors", "why_tests_cant": "all sizes", "anchors": ["specula/processing_objects/mirror_commands_combinator.py", "specula/processing_objects/linear_combination.py"]}
{"id": "C51", "title": "The deformable mirror surface is the signed linear combination of the last commands", "statement": "After any non-empty sequence of commands the mirror phase equals sign times the combination of the selected modes with, for each mode, the last command element given for it (elements beyond the commanded modes are ignored, modes never commanded count as zero). Hence, if no earlier command was longer than the last one, the surface is sign times the combination with the last command, missing trailing elements counting as zero. A shorter command after a longer one leaves the old values of the missing elements in place. With a mode-to-command matrix the same holds for the modal vector, converted to actuators by the matrix. A mode list together with a start mode or a number of modes is rejected.", "quantifier": "all influence functions, mode selections, command histories and command sizes", "why_tests_cant": "stale state depends on history", "anchors": ["specula/processing_objects/dm.py:DM.trigger_code"]}
{"id": "C52", "title": "Explicit and implicit pseudo-open-loop reconstruction agree", "statement": "With the same matrices, at every time at which the slopes are fresh and whatever the history, the explicit and the implicit pseudo-open-loop reconstructors output the same modes, P R (slopes + D commands) - commands (exact arithmetic). When the slopes are not fresh the explicit one keeps its output while the implicit one recomputes it, so the outputs can differ. The implicit one never writes the pseudo open loop output. Commands connected as a list make both fail.", "quantifier": "all matrices, slopes, commands, refresh histories", "why_tests_cant": "all sizes and values", "anchors": ["specula/processing_objects/modalrec.py", "specula/processing_objects/modalrec_implicit_polc.py"]}
{"id": "C53", "title": "Multirate reconstruction equals full reconstruction with missing sensors set to zero", "statement": "At every trigger all outputs are written with the current time: output k is the column block of sensor k of the matrix selected by the set of refreshed sensors applied to its slopes, or zero if the sensor is not refreshed. The sum of the outputs equals the selected reconstructor applied to the stacked slopes with the slopes of non-refreshed sensors set to zero. An unknown refresh pattern raises KeyError; with no refreshed sensor all outputs are zero. Tables with duplicated masks, wrong numbers of rows or masks of different lengths are rejected at construction, and wrong slope counts at setup.", "quantifier": "all sensor partitions, masks and slopes", "why_tests_cant": "all sizes and subsets", "anchors": ["specula/processing_objects/modalrec_multirate.py"]}
{"id": "C54", "title": "The calibrated interaction matrix is the average of normalised responses", "statement": "After a calibration, column m of the interaction matrix is the mean, over the frames with fresh slopes that poke mode m, of slopes divided by the amplitude of the poke, and zero for modes never poked. Building the matrix from recorded slopes and disturbances gives the same matrix. Frames poking several modes at once are refused unless they poke as many modes as there are slopes (then the division is element by element and the result is charged to the first mode). A poke of a mode before the first calibrated one is charged to a mode counted from the end, or refused when it lies further back than the number of modes. With several sensors each matrix is the mean over all triggers and command vectors, whether or not the slopes are fresh, and the full matrix stacks them.", "quantifier": "all calibration histories, numbers of modes, slopes and sensors", "why_tests_cant": "unbounded histories", "anchors": ["specula/processing_objects/im_calibrator.py", "specula/processing_objects/multi_im_calibrator.py", "specula/data_objects/intmat.py:Intmat.build_from_slopes"]}
{"id": "C55", "title": "Optical gain estimates stay in range", "statement": "After every history of scalar signals the optical gain estimate is the initial one times the product of 1 - gain*(1 - ratio) over the triggers where both signals are fresh and the command is larger than 1e-12 in absolute value. The reported output is the minimum of the estimate and one, hence never larger than one; unit ratios, stale signals and tiny commands leave the estimate unchanged; with a gain in [0,1] and ratios in [0,1] the estimate stays between zero and the initial one. Commands that are not scalars are refused. The estimate itself (the other output) is not limited to one.", "quantifier": "all histories of demodulated signals", "why_tests_cant": "unbounded histories", "anchors": ["specula/processing_objects/optical_gain_estimator.py"]}
{"id": "C56", "title": "X and Y slopes partition the slope vector", "statement": "After construction with an even number of slopes (or any number in the sequential layout), and after resize to an even size, the X and Y index sets are disjoint and cover the vector; for odd sizes after resize, or interleaved, exactly the last element is in neither. Writing X and Y slopes in either order and reading them back returns what was written and changes nothing else. The two-dimensional maps show the k-th X (Y) slope at the k-th position of the display map and zero elsewhere. Adding a multiple of a vector and subtracting it returns the original.", "quantifier": "all lengths and both interleavings, after construction and after resize", "why_tests_cant": "odd lengths and resizes", "anchors": ["specula/data_objects/slopes.py:Slopes"]}
{"id": "C57", "title": "Interaction matrices survive save and restore", "statement": "Restoring a saved interaction matrix returns the same matrix. (Slope statistics, tags and normalisation factor are not returned: they arrive in other attributes, and the restored object cannot be saved again.)", "quantifier": "all interaction matrices", "why_tests_cant": "all field values", "anchors": ["specula/data_objects/intmat.py:Intmat.save", "specula/data_objects/intmat.py:Intmat.restore"]}
{"id": "C58", "title": "Calibration objects survive save and restore", "statement": "Restoring a saved reconstructor, modes-to-commands matrix, influence function, inverse influence function, sub-aperture table, pupil table, pixel frame, intensity, layer, pupil stop, slope vector, value, time history, IIR filter or source returns the saved data, except for the stated attributes; other files are not touched; existing files are not replaced unless asked; files of another kind are refused where the kind is checked. Sources at infinity (the default) cannot be saved.", "quantifier": "all objects of these types", "why_tests_cant": "all sizes and contents", "anchors": ["specula/data_objects/ifunc.py", "specula/data_objects/ifunc_inv.py", "specula/data_objects/subap_data.py", "specula/data_objects/pupdata.py", "specula/data_objects/recmat.py", "specula/data_objects/m2c.py", "specula/data_objects/slopes.py", "specula/data_objects/pixels.py", "specula/data_objects/intensity.py", "specula/data_objects/layer.py", "specula/data_objects/pupilstop.py", "specula/data_objects/time_history.py", "specula/data_objects/source.py", "specula/data_objects/iir_filter_data.py:IirFilterData.save", "specula/base_value.py:BaseValue.save"]}
{"id": "C59", "title": "Rebinning averages blocks and preserves the mean", "statement": "Averaging an array over blocks (rebin2d) gives for each output pixel the mean of its block and preserves the mean of the frame; non-integer factors and enlargements raise ValueError; enlarging by sampling with integer factors repeats pixels and averaging undoes it. Condition found: the target must not have more columns than the input has ROWS; integer-factor rebinning of wider frames is refused.", "quantifier": "all arrays and target shapes", "why_tests_cant": "all sizes", "anchors": ["specula/lib/rebin.py:rebin2d"]}
{"id": "C60", "title": "Linear pixel indices and row/column pairs correspond one to one", "statement": "Unravelling a linear index and ravelling it back returns the index, with row and column in range.", "quantifier": "all shapes and indices", "why_tests_cant": "all sizes", "anchors": ["specula/lib/utils.py:unravel_index_2d"]}
{"id": "C61", "title": "A published filter output does not change while the next step is being prepared", "statement": "Between the end of one step and the end of the next, the value published by a filter output is constant, so objects that read it during that time all see the same value.", "quantifier": "all filters, delays, input histories; fails for positive integer delays, where the output is a view of the delay buffer", "why_tests_cant": "Whether a reader is affected depends on the order of objects in the simulation; a test fixes one order.", "anchors": ["specula/processing_objects/base_filter.py:BaseFilter.prepare_trigger", "specula/processing_objects/base_filter.py:BaseFilter.post_trigger"]}
{"id": "C62", "title": "A state-space filter built from per-channel blocks is a bank of independent filters", "statement": "Every channel of a state-space filter assembled from one small system per channel produces exactly the outputs that the small system alone produces on that channel of the input, delay included.", "quantifier": "all numbers of channels, all block sizes, all matrices, all inputs", "why_tests_cant": "A test checks fixed block sizes; offset errors only show up for particular mixed sizes.", "anchors": ["specula/data_objects/ssr_filter_data.py:SsrFilterData._build_block_diagonal", "specula/processing_objects/ssr_filter.py:SsrFilter.trigger_code"]}
{"id": "C63", "title": "State-space and recursive integrators are equivalent", "statement": "An integrator defined in state-space form and one defined in recursive form with the same gains and forgetting factors give the same outputs on every input, delay included.", "quantifier": "all gains, forgetting factors, delays, inputs, gain modulations", "why_tests_cant": "The two code paths share nothing; tests compare a few samples.", "anchors": ["specula/data_objects/ssr_filter_data.py:SsrFilterData.from_integrator", "specula/data_objects/iir_filter_data.py:IirFilterData.from_gain_and_ff"]}
{"id": "C64", "title": "A state-space filter built from gains is memoryless", "statement": "The output of a state-space filter built from a list of gains is, at every step, the gain times the modulated input of the same step.", "quantifier": "all gains and inputs", "why_tests_cant": "Needs all histories: memory would show only after particular sequences.", "anchors": ["specula/data_objects/ssr_filter_data.py:SsrFilterData.from_gain"]}
{"id": "C65", "title": "The multirate filter has the documented DC weights", "statement": "With constant measurements, over any number of frames that is a common multiple of the slow periods, the fused input of the multirate filter adds up to that number times the tracking gain times the weighted mean of all sensors, whatever frame the period starts on.", "quantifier": "all weights, rate ratios, common multiples and starting frames", "why_tests_cant": "The identity depends on divisibility for all ratios, a test can only sample ratios.", "anchors": ["specula/processing_objects/multirate_complementary_filter.py:MultirateComplementaryFilter.__init__", "specula/processing_objects/multirate_complementary_filter.py:MultirateComplementaryFilter.trigger_code"]}
{"id": "C66", "title": "Detector binning averages the pixels of a block", "statement": "With binning b and frame sizes that are multiples of b, every detector pixel is the mean of its b x b block, so the total is divided by b^2; with binning 1 the frame is unchanged. A sensor with more binned columns than rows cannot be binned (ValueError), and sizes that are not multiples of b can be accepted (5 x 5 with b = 4).", "quantifier": "all frames, sizes and binning factors", "why_tests_cant": "all sizes", "anchors": ["specula/processing_objects/ccd.py:CCD.apply_binning"]}
{"id": "C67", "title": "Both ends of a remote connection agree", "statement": "When the processes of a distributed run connect the same configuration, every connection between objects of different processes is made as a send in the producer's process and as a receive in the consumer's process with the same tag and each other's rank, local connections are made only in their process, and no other process does anything.", "quantifier": "all configurations, all assignments of objects to processes", "why_tests_cant": "the number of objects, connections and processes is unbounded", "anchors": ["specula/simul.py:Simul.connect", "specula/simul.py:Simul.connect_objects", "specula/simul.py:computeTag"]}
{"id": "C68", "title": "A targeted replay is self-contained", "statement": "Building a targeted replay always ends; the result contains the SimulParams object, the targets and everything they need: each object it contains depends, through inputs and references, only on objects it contains or on the data source. Parameters other than inputs are those of the original, and an input is either unchanged or reads from the data source a stored output it referred to. (The parameters given by the caller are modified, and a list input with a stored element is replaced as a whole.)", "quantifier": "all configurations and targets, including feedback loops", "why_tests_cant": "requires all reference graphs, cyclic ones included", "anchors": ["specula/simul.py:Simul.build_targeted_replay", "specula/simul.py:Simul.iterate_inputs"]}
{"id": "C69", "title": "Without POLC the modal reconstructor applies the selected matrix", "statement": "For every history the output equals the selected matrix applied to the slopes presented at that time: the given reconstructor, optionally with its last modes cut or a filter applied before it, or the identity. Given only a non-square interaction matrix, the reconstructor accepts it but refuses the slopes of that interaction matrix, because it is used without inversion; with a number of modes as well, construction fails.", "quantifier": "all matrices, slopes and histories", "why_tests_cant": "all sizes and option combinations", "anchors": ["specula/processing_objects/modalrec.py:Modalrec.__init__", "specula/processing_objects/modalrec.py:Modalrec.trigger_code"]}
{"id": "C70", "title": "A demodulator processes each sample exactly once", "statement": "At the end of each demodulation period output i is the demodulation, at carrier frequency i, of element i of the samples received since the end of the previous period; between the ends of periods the output does not change. For one-dimensional data the mode numbers only count the signals: signal i is element i of the data, not element mode_numbers[i].", "quantifier": "all histories, periods, numbers of modes and demodulation functions", "why_tests_cant": "the partition into periods concerns unbounded histories", "anchors": ["specula/processing_objects/demodulator.py"]}
{"id": "C71", "title": "Changing the number of modes or slopes keeps the others", "statement": "Setting the number of modes (slopes) of an interaction matrix keeps the first ones and pads with zeros; adding and removing gives the matrix back; discarding keeps the first ones and refuses to discard all; a start mode drops the modes before it; interaction and reconstruction matrices keep the same modes; cutting an influence function keeps exactly the chosen range or list of modes in order, and cutting columns is cutting rows of the transposed matrix. Negative numbers are not refused.", "quantifier": "all matrices, numbers and lists of modes", "why_tests_cant": "unbounded sizes", "anchors": ["specula/data_objects/intmat.py:Intmat.set_nmodes", "specula/data_objects/intmat.py:Intmat.set_nslopes", "specula/data_objects/intmat.py:Intmat.reduce_size", "specula/data_objects/intmat.py:Intmat.reduce_slopes", "specula/data_objects/intmat.py:Intmat.set_start_mode", "specula/data_objects/recmat.py:Recmat.reduce_size", "specula/data_objects/m2c.py:M2C.set_nmodes", "specula/data_objects/ifunc_inv.py:cut_modes"]}
{"id": "C72", "title": "Resampling to detector pixels preserves flux", "statement": "Resampling an image to a detector shape gives each detector pixel the flux of the fractions of image pixels it covers, scaled so that the total is the requested one (by default the total of the image), provided the total is positive; square images to square detectors are always accepted, some other shapes raise ValueError.", "quantifier": "all images, shapes and totals", "why_tests_cant": "least common multiple grids of all sizes", "anchors": ["specula/lib/toccd.py:toccd", "specula/lib/rebin.py:rebin2d"]}
{"id": "C73", "title": "Pyramid slopes", "statement": "After any sequence of frames the slopes of a pyramid (or double roof) sensor are, for each sub-aperture, the difference between the light of the right and of the left (upper and lower) pixels over the mean light per sub-aperture of the last frame; counts are the light of each sub-aperture, their sum and mean. No slope exceeds the number of sub-apertures in magnitude and the mean magnitude of the X (and of the Y) slopes is at most one; equal pupils give zero; scaling the frame changes nothing; slopes from intensities have mean one. A dark frame gives NaN; a negative normalisation factor is ignored; shlike is rejected unless the factor is zero.", "quantifier": "all index arrays of four pupils, histories of frames, thresholds and normalisations", "why_tests_cant": "all frames and geometries; sessions of any length", "anchors": ["specula/processing_objects/pyr_slopec.py:PyrSlopec.trigger_code", "specula/processing_objects/slopec.py:Slopec"]}
{"id": "C74", "title": "Shack-Hartmann slopes", "statement": "After any sequence of frames the slopes of a sub-aperture are the centroid of its thresholded light, in units where the outer edges of the sub-aperture are at -1 and 1, computed with the weights in force (a mask, or the thresholded accumulated image); they never exceed the centre of the outermost pixel; light in one pixel gives its centre; transposing every sub-aperture exchanges X and Y, turning it by half a turn changes the sign, symmetric light gives zero, and scaling the light changes nothing without a threshold. A sub-aperture below the relative light limit has zero slopes, so brightening another sub-aperture can zero it; dark frames give NaN; sub-apertures of one pixel are rejected.", "quantifier": "all frames, histories, geometries, masks and exponents", "why_tests_cant": "all images and sub-aperture sizes", "anchors": ["specula/processing_objects/sh_slopec.py:ShSlopec.trigger_code", "specula/processing_objects/sh_slopec.py:ShSlopec.set_xy_weights"]}
{"id": "C75", "title": "Reference slopes and slope filtering", "statement": "The reference slopes are subtracted from X and Y separately whatever the layouts. Filtering subtracts the slopes of the modes measured by the reconstructor: it is linear, and if the reconstructor inverts the interaction matrix it removes every combination of the modes, leaves slopes without them unchanged and is idempotent. The filter matrices are accepted as a pair or separately, not both and not one alone.", "quantifier": "all slope vectors and matrices over any field", "why_tests_cant": "all matrices; algebra", "anchors": ["specula/processing_objects/slopec.py:Slopec.do_filter_modes", "specula/processing_objects/slopec.py:Slopec.do_rec", "specula/processing_objects/slopec.py:Slopec.post_trigger"]}
{"id": "C76", "title": "Accumulated frames", "statement": "With accumulation, the accumulated frame is at every time the sum of the frames of the current window; a window ends at a frame whose time is a multiple of the duration; weights derived from it are between 0 and 1. With frames at regular times windows contain the same number of frames, except the first, which has one more; a window whose end falls between frames is not closed.", "quantifier": "all histories, durations and frame sizes", "why_tests_cant": "unbounded histories", "anchors": ["specula/processing_objects/sh_slopec.py:ShSlopec.do_accumulation", "specula/processing_objects/sh_slopec.py:ShSlopec.prepare_trigger"]}
{"id": "C77", "title": "Coordinate grids", "statement": "make_xy gives n equally spaced points 2*ratio/n apart, symmetric about zero unless zero_sampled with even n, spanning the cells of [-ratio, ratio]; quarter gives the second half, fft the order starting from the middle; the two arrays are the same axis along columns and rows; fewer than two points are rejected.", "quantifier": "all sizes and ratios", "why_tests_cant": "all sizes", "anchors": ["specula/lib/make_xy.py:make_xy"]}
{"id": "C78", "title": "Zernike and curvature sensor signals", "statement": "The Zernike sensor gives each pixel of the pupil its value above the threshold over their mean (so the mean signal is one, and scaling pixels and threshold changes nothing). The curvature sensor gives the difference of the two images over their sum: between -1 and 1 for non-negative images, zero for equal images, opposite when the images are exchanged. A dark frame gives NaN in the first and counts of one per pixel in the second.", "quantifier": "all frames and pupils", "why_tests_cant": "all images", "anchors": ["specula/processing_objects/zwfs_slopec.py:ZwfsSlopec.trigger_code", "specula/processing_objects/cur_wfs_slopec.py:CurWfsSlopec.trigger_code"]}
{"id": "C79", "title": "Electric fields", "statement": "After reset an electric field with finite values has amplitude one and phase zero everywhere with its shape, pitch and flux unchanged; resize gives such a field of the new shape. Multiplying a field by successive larger fields at given corners gives at each pixel the product of the amplitudes and the sum of the phases of the corresponding pixels, whatever the order of the factors. Extracting a square region gives exactly these pixels; a non-square region raises ValueError. Areas are the number of pixels (the sum of amplitudes) times the squared pitch. Disproved: reset clears NaN; product works with its default corner; product rejects smaller fields; extraction from a list of pixels contains them; the displayed phase has zero mean over lit pixels.", "quantifier": "all fields, corners and sequences of products over any field of numbers", "why_tests_cant": "all sizes and contents", "anchors": ["specula/data_objects/electric_field.py:ElectricField.reset", "specula/data_objects/electric_field.py:ElectricField.resize", "specula/data_objects/electric_field.py:ElectricField.product", "specula/data_objects/electric_field.py:ElectricField.sub_ef", "specula/data_objects/electric_field.py:ElectricField.array_for_display"]}
{"id": "C80", "title": "Combining, reflecting and flattening fields", "statement": "After any triggers a combinator outputs the sum of the phases, the product of the amplitudes and the sum of the flux densities of the last values of its inputs, in any order of the inputs; a list or a pair of inputs is accepted, not both. A reflection outputs the opposite phase and the same amplitude; reflecting twice gives back the field. Flattening subtracts from the pixels with light the mean phase over these pixels and leaves the others, so that the phases of lit pixels sum to zero; flattening again changes nothing. Disproved: fields of equal shape that are not square can be combined.", "quantifier": "all lists of fields and histories of triggers", "why_tests_cant": "unbounded histories and sizes", "anchors": ["specula/processing_objects/electric_field_combinator.py:ElectricFieldCombinator", "specula/processing_objects/electric_field_reflection.py:ElectricFieldReflection", "specula/processing_objects/phase_flattening.py:PhaseFlattening"]}
{"id": "C81", "title": "Two-dimensional interpolation", "statement": "An interpolator returns at each output pixel the value, at the rotated, magnified and shifted position limited to the array, of the surface joining the input pixels bilinearly: it equals the input at pixels, is linear in the input and stays between its least and greatest values. Integer positions copy pixels; a quarter turn permutes them exactly; same shapes without transformation give back the input; arrays or coordinates of another shape raise ValueError. The GPU kernel computes the same positions and values and reads indices between 0 and the number of pixels. Disproved: a shift by one pixel with the default grid moves the picture by one pixel; the last pixel is kept when the number of pixels changes; the kernel reads only from the array.", "quantifier": "all shapes, coordinates, rotations, magnifications, shifts and arrays of rational numbers", "why_tests_cant": "continuous parameters and all sizes", "anchors": ["specula/lib/interp2d.py:Interp2D.__init__", "specula/lib/interp2d.py:Interp2D.interpolate"]}
{"id": "C82", "title": "Geometric propagation through layers", "statement": "After any triggers the field received from a source is, at each pupil pixel, the product of the amplitudes and the sum of the phases of all layers where the straight ray from the source to this pixel crosses them, whatever the order of layers and the direction of propagation; earlier triggers leave no trace. A layer whose footprint centre is too far from the axis, or which is not below the source, is rejected at setup. With a layer seen on axis the central pixels are used exactly. Separate outputs per layer always fail. Disproved: chromatic shift displaces an on-axis star; the centre is seen when parities differ; accepted layers cover the pupil; smaller layers are rejected; symmetric rectangular layers are seen symmetric.", "quantifier": "all pupils of at least two pixels, sources, lists of layers and histories of triggers", "why_tests_cant": "unbounded lists, sizes and histories", "anchors": ["specula/processing_objects/atmo_propagation.py:AtmoPropagation.setup", "specula/processing_objects/atmo_propagation.py:AtmoPropagation.layer_interpolator", "specula/processing_objects/atmo_propagation.py:AtmoPropagation.setup_interpolators", "specula/processing_objects/atmo_propagation.py:AtmoPropagation.trigger_code"]}
{"id": "C83", "title": "Frozen flow of the atmosphere", "statement": "While the wind does not blow backwards and windows stay inside screens, triggers never fail and after each one every layer shows its own phase screen, displaced along the wind by exactly the distance covered since the start (or since a later trigger where the screen restarted), linearly interpolated between pixels, turned by the wind direction and scaled by the seeing; with a constant wind only the last time matters; an extra time shows the screen as it will be that much later; zero seeing gives zero phase; directions differing by a full turn give the same phases. Upward and downward atmospheres evolve separately. Disproved: backward winds are accepted; bad extra times are rejected at construction; screens are periodic; sampling does not matter after a restart.", "quantifier": "all numbers of layers, screens, histories of winds, seeings and times", "why_tests_cant": "unbounded histories of triggers and continuous winds", "anchors": ["specula/processing_objects/atmo_evolution.py:AtmoEvolution.prepare_trigger", "specula/processing_objects/atmo_evolution.py:AtmoEvolution.trigger_code", "specula/processing_objects/atmo_evolution.py:AtmoEvolution._update_layer_list"]}
{"id": "C84", "title": "Phase screens of the atmosphere", "statement": "Screens whose file names differ are those computed from their own outer scale, pitch and seed, whatever was stored before. Layers are the smallest even squares covering pupil and field of view. With one outer scale consecutive layers are centred copies, scaled by the root of their Cn2 and mirrored when odd, of rows of computed squares that no other layer uses; with several, each layer has its own square and seed. Their mean is zero and their variance is proportional to Cn2. Too small squares, seeds not positive and Cn2 not adding up to one are refused. Disproved: outer scales 25 and 25.4, or pitches 0.0501 and 0.0502, never share a screen; a pupil away from the centre is covered; negative positions are possible; Cn2 adds up to one within 1e-6; layers are never smaller than the pupil.", "quantifier": "all recipes, directories, numbers of layers, sizes and profiles", "why_tests_cant": "unbounded sizes and orders of requests; a wrong cached file looks like any other screen", "anchors": ["specula/processing_objects/atmo_evolution.py:AtmoEvolution.__init__", "specula/processing_objects/atmo_evolution.py:AtmoEvolution.compute", "specula/lib/phasescreen_manager.py:phasescreens_manager"]}
{"id": "C85", "title": "Modal analysis and multiplication by a matrix", "statement": "A trigger of a modal analysis writes, for each mode, the sum over the pixels of the mask of phase times inverse influence function. A wavefront made of modes gives back its coefficients; the coefficients are linear in the wavefront; nothing outside the mask matters, even when phases are unwrapped; a wavefront shaped by a mirror with the same influence functions gives the command with the sign of the mirror; for a pseudo-inverse no other coefficients leave a smaller sum of squares. MVM writes the product of matrix and vector, and refuses vectors of another size. Disproved: fields given as a list are analysed; the influence functions given are left as they were; an inverse can be cut to fewer modes; the number of modes is obeyed when both influence functions and inverse are given.", "quantifier": "all masks, influence functions, inverses, wavefronts, commands and histories of commands", "why_tests_cant": "continuous wavefronts and unbounded numbers of modes and pixels", "anchors": ["specula/processing_objects/modal_analysis.py:ModalAnalysis.__init__", "specula/processing_objects/modal_analysis.py:ModalAnalysis.setup", "specula/processing_objects/modal_analysis.py:ModalAnalysis.trigger_code", "specula/processing_objects/mvm.py:MVM.setup", "specula/processing_objects/mvm.py:MVM.trigger_code"]}
{"id": "C86", "title": "Resampling of electric fields beyond the edge of the pupil", "statement": "A field of n x n pixels is resampled to m x m: the phase is that of the pupil, extended by one pixel with the average of the straight lines through two pupil pixels in each of the four directions, and interpolated at the point seen; amplitudes that were zero or one stay so; pitch times size is kept. Phases outside the pupil never matter. A constant phase stays constant and a plane stays a plane wherever the point seen touches only the pupil and well supported neighbours. Using one interpolator again gives what a new one would give. With nothing to do the output is the input. Refused: another aspect ratio, tiny magnifications. Disproved: planes go on next to parts of the pupil one pixel deep; a shift along x moves columns; parameters can be updated without a magnification; an update leaves the remaining parameters; a changed pupil is noticed; rectangles can be resampled.", "quantifier": "all fields, pupils, thresholds, angles, shifts, magnifications, sizes and sequences of fields", "why_tests_cant": "continuous phases, all shapes of pupils and unbounded sizes", "anchors": ["specula/lib/extrapolation_2d.py:EFInterpolator.__init__", "specula/lib/extrapolation_2d.py:EFInterpolator.update_parameters", "specula/lib/extrapolation_2d.py:EFInterpolator.interpolate", "specula/lib/extrapolation_2d.py:_calculate_extrapolation_indices_coeffs", "specula/lib/extrapolation_2d.py:_apply_extrapolation"]}
{"id": "C87", "title": "Phase screens given as a cube", "statement": "After every trigger all outputs, layers and fields, hold the screen of that moment as seen from the pupil, the pupil stop and the time, whatever they held before. The screen of the moment lies on the straight line in time between the two screens that enclose it, times the factor; at a time given it is the screen given. A cube with size and pitch of the pupil is shown as it is. After the last time everything is refused. Disproved: before the first time the sign is kept; one screen alone is shown; screens may be rectangles; sources may have any names; a larger cube with the pitch of the pupil is shown by its central pixels.", "quantifier": "all cubes with increasing times, times inside, sizes, pitches, factors, sets of sources and histories of triggers", "why_tests_cant": "continuous time and space, unbounded cubes and histories", "anchors": ["specula/processing_objects/phase_screen_cube.py:PhaseScreenCube.initScreens", "specula/processing_objects/phase_screen_cube.py:PhaseScreenCube.prepare_trigger", "specula/processing_objects/phase_screen_cube.py:PhaseScreenCube.trigger_code"]}
{"id": "C88", "title": "Arrays that evolve in time", "statement": "An array given with the time on its last axis is kept with the time first: for any number of dimensions the value at [t, i...] is the one given at [i..., t]. Given with the time first it is kept as it is. Exactly the other axes, arrays without dimensions and numbers of times that differ from the size of the axis are refused. Reading a saved array gives it back. New values of the same shape are taken as they are, with the time last they are moved, others are refused. Disproved: new values with the time last are always moved (not when the shape is the same); a wrong number of new times is refused.", "quantifier": "all arrays of all shapes, values and times", "why_tests_cant": "unbounded shapes and numbers of dimensions", "anchors": ["specula/data_objects/spatio_temp_array.py:SpatioTempArray.__init__", "specula/data_objects/spatio_temp_array.py:SpatioTempArray.set_value", "specula/data_objects/spatio_temp_array.py:SpatioTempArray.set_time_vector", "specula/data_objects/spatio_temp_array.py:SpatioTempArray.save", "specula/data_objects/spatio_temp_array.py:SpatioTempArray.restore"]}
{"id": "C89", "title": "Filters with a gain that changes during the run", "statement": "Each undelayed output solves the difference equation of its channel over the inputs and outputs since the latest reset, with the numerator scaled to the latest gain; without feedback it is a weighted sum of inputs. The output is the undelayed one of the delay ago, interpolated for fractional delays. A reset gives the state of a new filter with the coefficients of the moment. A run succeeds exactly when inputs fit and, for the integrator, every new gain is one number. The integrator gives forgetting factor times previous output plus latest gain times input. A new gain changes the channels it names with finite values, keeping the ratios of coefficients, and no others. Disproved: an integrator built with gain zero follows later gains; a bad gain does not stop the run; a channel not named keeps its coefficients even when the last one is zero; a vector of one gain is used for all channels.", "quantifier": "all coefficients, numbers of channels, delays, sequences of inputs, gains and resets", "why_tests_cant": "unbounded runs with changing coefficients", "anchors": ["specula/processing_objects/dynamic_iir_filter.py:DynamicIirFilter.trigger_code", "specula/processing_objects/dynamic_integrator.py:DynamicIntegrator.trigger_code", "specula/data_objects/iir_filter_data.py:IirFilterData.set_gain", "specula/data_objects/iir_filter_data.py:IirFilterData.set_num"]}
{"id": "C90", "title": "Dark calibration during a run", "statement": "From an idle object a trigger gives, after the number of frames set, the pixelwise mean of these frames stamped with the time of the last one; until then the dark in force is the old one, or zero after a reset; without trigger it changes by resets only. The output is the frame minus the dark in force before it. A run succeeds exactly when new numbers of frames are positive and files can be read. Disproved: a second trigger during an acquisition starts it again (the earlier frames stay in the sum); a new number of frames that arrives with the trigger gives a mean; a loaded dark is used; wrong values on interactive inputs do not stop the run; a reset stamps the dark.", "quantifier": "all sequences of frames, triggers, resets, numbers of frames and loads", "why_tests_cant": "unbounded histories of requests and frames", "anchors": ["specula/processing_objects/dynamic_dark_calibrator.py:DynamicDarkCalibrator.trigger_code", "specula/processing_objects/dynamic_dark_calibrator.py:DynamicDarkCalibrator.prepare_trigger"]}
{"id": "C91", "title": "Where calibrations are written and read", "statement": "The file checked at the start is the file written at the end, and it is the file the loader of the matching parameter opens, for every root and tag. Different relative names or kinds with different directories never give the same file; unknown kinds are refused. The slope null written is the mean of the frames, no other file changes, and without permission an existing file stops the calibration at the start. For several sensors the two files agree when the directory is absolute. Disproved: a slope null is found by the name of its class; finalizing twice is harmless; the end succeeds without frames or without directory; several sensors with a relative directory (they are always written elsewhere than checked).", "quantifier": "all roots, directories, tags, templates, files present, frames and numbers of frames", "why_tests_cant": "all strings and file systems", "anchors": ["specula/calib_manager.py:CalibManager.root_subdir", "specula/calib_manager.py:CalibManager.filename", "specula/processing_objects/sn_calibrator.py:SnCalibrator.__init__", "specula/processing_objects/sn_calibrator.py:SnCalibrator.trigger_code", "specula/processing_objects/sn_calibrator.py:SnCalibrator.finalize", "specula/processing_objects/multi_rec_calibrator.py:MultiRecCalibrator.finalize"]}
{"id": "C92", "title": "Construction of objects from the parameters", "statement": "Exactly the objects that live in a process are built there: those that ask for its rank, those that ask for none in the first process, and data objects without a wish in all; of every other object the process records the rank. A processing object is built by exactly one of n processes. Each constructor receives, for every argument, what the last parameter that writes it says: the value itself, the object(s) named by a *_ref, the file or restored object(s) of a tag; otherwise only what the simulation adds. A tag stands alone and gives the object of its file. An unexpected parameter stops every process. A configuration with sound acyclic references whose objects are individually buildable is built completely. The objects of a process equal those of the simulation run alone; if all processes succeed so does one alone; a process succeeds if one alone does, its references are local and no tagged object is elsewhere. Disproved: a tagged object can be given to a process; references to objects of other processes, or to outputs, are resolved; a given data_dir makes the table of directories irrelevant.", "quantifier": "all parameter dictionaries, classes, constructors, files and processes", "why_tests_cant": "all configurations and distributions", "anchors": ["specula/simul.py:Simul.build_objects", "specula/simul.py:Simul.setSimulParams", "specula/simul.py:Simul.build_order"]}
{"id": "C93", "title": "Connection of inputs to outputs, in one process or in several", "statement": "After the objects of a configuration are connected, every input contains, in the order of its references, exactly the data objects of the local outputs they name (all of the accepted type) and one receiver with the tag of the connection for each remote one; every object sends exactly one message for each reader elsewhere, to its process, with the same tag and the delay written. The connection succeeds exactly when the declared outputs and inputs exist and every reference leads to an existing output of the right type. With several processes placed as build_objects places them, each message sent is expected at its destination and each message expected is sent, and every reference leads to an existing output. What connects in one process connects in several when the data objects used as inputs live with their readers. In one process the inputs contain what the simulation loop reads. Disproved: data objects present in all processes can be inputs; types are checked across processes; a list output arrives whole from another process.", "quantifier": "all configurations, sets of objects, outputs of any nesting, types, distributions over processes", "why_tests_cant": "configurations with any number of objects and processes", "anchors": ["specula/simul.py:Simul.connect_objects", "specula/simul.py:Simul.connect", "specula/simul.py:Simul.split_output", "specula/connections.py:InputList.append", "specula/base_processing_obj.py:BaseProcessingObj.addRemoteOutput"]}
{"id": "C94", "title": "Input lists of DataStore and DataBuffer", "statement": "Each entry name-object.output of the input_list of a DataStore or DataBuffer becomes an input called name, of the type of the output (a list input for a list output), and a reference in the parameters in place of the list; after the connection the input contains exactly the data objects of that output, or a receiver for a remote one. A DataBuffer has one output name_buffered for each of its inputs. Nothing else changes and it succeeds when every entry names an existing output that is not an empty list and every DataBuffer is in the process. Disproved: all entries are kept when two have the same name; a DataBuffer can live in another process; the order of the objects is irrelevant; an empty list output is accepted.", "quantifier": "all configurations, objects, outputs, entries", "why_tests_cant": "configurations with any number of entries", "anchors": ["specula/simul.py:Simul.create_input_list_inputs", "specula/processing_objects/data_buffer.py:DataBuffer.setOutputs", "specula/simul.py:Simul.connect_objects"]}
{"id": "C95", "title": "Lines added to a phase screen without end", "statement": "The side of an InfinitePhaseScreen is a power of two plus one, at least 257 and at least the size asked for. The points used for a new line are those at distances 0, 1, 2, 4, ... from the side of the line, one every 1, 2, 4, 8, ... columns, and the central one of the last row needed; the stencil of the other side is the mirror image. add_line moves every pixel by one place and adds a line made of the old values at these points and of one vector of random numbers. A line added without flush and withdrawn is added again unchanged. A line added after the screen is the line added before the screen turned by 180 degrees; adding a row is adding a column to the transposed screen. Adding lines on one side shows, line after line, a strip that is uniquely determined by the screen and the random numbers.", "quantifier": "all sizes, matrices of the right shape, screens, random numbers, numbers of lines", "why_tests_cant": "screens of any size and any number of lines", "anchors": ["specula/data_objects/infinite_phase_screen.py:InfinitePhaseScreen.set_stencil_coords", "specula/data_objects/infinite_phase_screen.py:InfinitePhaseScreen.add_line", "specula/data_objects/infinite_phase_screen.py:InfinitePhaseScreen.get_new_line", "specula/data_objects/infinite_phase_screen.py:InfinitePhaseScreen.prepare_random_data_col"]}
{"id": "C96", "title": "Frozen flow of AtmoInfiniteEvolution", "statement": "A layer whose wind always blows along one axis and in one sense shows, after every trigger, one strip of turbulence at the distance covered plus that of the extra time, linearly interpolated between lines: the result depends only on the distance, not on the number of triggers or changes of speed, and a displacement by a whole number of lines moves the picture rigidly. Without seeing the phase is zero. A simulation runs exactly when every layer has a wind and an element of Cn2. Wrong numbers of L0 or of inputs, seeds that are not positive and Cn2 that do not sum to one are refused. Disproved: a layer comes back when the wind turns back; with a wind along neither axis the phase stays between the extreme values of the screen; with such a wind the result does not depend on the triggers; everything that is accepted runs (Cn2 shorter than the heights gives IndexError).", "quantifier": "all lists of layers, screens, random numbers, sequences of triggers, winds, seeing values", "why_tests_cant": "sequences of triggers of any length with any wind speeds", "anchors": ["specula/processing_objects/atmo_infinite_evolution.py:AtmoInfiniteEvolution.trigger_code", "specula/processing_objects/atmo_infinite_evolution.py:AtmoInfiniteEvolution.prepare_trigger", "specula/processing_objects/atmo_infinite_evolution.py:AtmoInfiniteEvolution.__init__", "specula/processing_objects/atmo_infinite_evolution.py:AtmoInfiniteEvolution.setup"]}
{"id": "C97", "title": "Upward and downward layers of AtmoInfiniteEvolutionUpDown", "statement": "When no upward extra time is smaller than the downward one, every downward layer is what AtmoInfiniteEvolution gives with a subsequence of the random numbers, and is carried by the wind in the same way. Disproved: with equal extra times the two lists of layers are the same (the upward ones are one step ahead); the upward layers are those of a simulation with the upward extra times; the downward layers are independent of the upward ones when an upward extra time is smaller.", "quantifier": "all lists of layers, extra times, screens, random numbers, sequences of triggers", "why_tests_cant": "sequences of triggers of any length", "anchors": ["specula/processing_objects/atmo_infinite_evolution_up_down.py:AtmoInfiniteEvolutionUpDown.trigger_code", "specula/processing_objects/atmo_infinite_evolution_up_down.py:AtmoInfiniteEvolutionUpDown.__init__"]}
{"id": "C98", "title": "The image of a point computed by calc_psf", "statement": "The image is the modulus squared of the Fourier sum of amplitude times exp(i phase) over the pupil, at the frequencies of the array, with the axis in the middle pixel (or at the corner when nocenter is set). Its total is the number of pixels times the sum of the squared amplitudes, whatever the phase; the normalised image has values between 0 and 1 and sums to 1. On the axis it is the modulus squared of the sum of the field; no pixel exceeds the square of the sum of the amplitudes, which is reached on the axis for a flat phase. A constant added to the phase, or whole waves that differ from pixel to pixel, change nothing; a tilt by whole waves over the array moves the image by that number of pixels, around the edges; the opposite phase turns the image by 180 degrees; a uniform transmission changes only the total. An array smaller than the pupil is refused with ValueError.", "quantifier": "all sizes of pupil and image, real amplitudes and phases, options", "why_tests_cant": "identities between infinitely many images, exact for every phase", "anchors": ["specula/lib/calc_psf.py:calc_psf", "specula/lib/calc_psf.py:psf_abs2"]}
{"id": "C99", "title": "Strehl ratio and long exposures of the PSF object", "statement": "A sequence of frames is processed exactly when the image (sizes rounded to an even number, ties to even) is square and not smaller than the pupil; with oversampling 1 an even pupil keeps its size, a pupil of 4k+3 pixels gets one more pixel, and a pupil of 4k+1 pixels is refused. For a frame with the amplitude of the first one, the value shown is the Strehl ratio: between 0 and 1, and 1 exactly when all lit pixels are in phase up to whole waves. At the end the averages of image and ratio are those of the frames from the start time on, the standard deviation is that of the population, and the average image sums to 1; without such frames they are zero. A second finalisation divides again. Disproved: the ratio never exceeds 1 (the reference is computed once, from the first frame: if more pixels are lit later it does).", "quantifier": "all sequences of frames, amplitudes, phases, times, sizes, oversamplings", "why_tests_cant": "sequences of any length and arbitrary fields", "anchors": ["specula/processing_objects/psf.py:PSF.setup", "specula/processing_objects/psf.py:PSF.prepare_trigger", "specula/processing_objects/psf.py:PSF.trigger_code", "specula/processing_objects/psf.py:PSF.post_trigger", "specula/processing_objects/psf.py:PSF.finalize"]}
{"id": "C100", "title": "The perfect coronagraph of the PSF object", "statement": "With subtraction of the average field nothing is left on the axis; the light left is the total less what the average field carries (for a pupil lit uniformly, one less the Strehl ratio), and the image is dark everywhere exactly when all lit pixels have the same field. Both formulas are blind to a constant added to the phase, the average also to whole waves that differ from pixel to pixel. The formula with mean and variance of the phase removes everything when the phase is flat, whatever the amplitude. Over a run, the images are averaged over the frames from the start time on and everything the plain PSF object does is unchanged. Disproved: a flat phase is removed by subtraction of the average when the amplitude is not uniform; the formula with the variance leaves nothing on the axis; it is blind to whole waves.", "quantifier": "all pupils, amplitudes, phases, sizes, sequences of frames", "why_tests_cant": "exact identities over infinitely many fields", "anchors": ["specula/processing_objects/psf_coronagraph.py:PsfCoronagraph.calc_coronagraph_psf", "specula/processing_objects/psf_coronagraph.py:PsfCoronagraph.trigger_code", "specula/processing_objects/psf_coronagraph.py:PsfCoronagraph.finalize"]}
{"id": "C101", "title": "The field after a coronagraph or a focal plane filter", "statement": "A field is refused only when it does not fit the padded array. Without apodizer, mask and stop it comes out unchanged, whatever the padding. The transmission, computed in the focal plane, is the ratio of the energies in the pupil; with elements that do not amplify it is between 0 and 1 and no light is created; it does not depend on the brightness of the source. The output is linear in the field, and what two complementary focal plane masks let through adds up to what no mask lets through. An apodizing phase plate leaves the amplitude unchanged with transmission 1; with masks that only delay (vortex, four quadrants) all the light reaches the plane of the stop, and a delay of whole waves does nothing. The electric field written out gives the computed field back at the wavelength of the object. Disproved: the photons of the output are the transmitted fraction of those of the input (the transmission is applied to the amplitude and to the flux). The phase-apodized pupil Lyot coronagraph with a knife edge (the default) can never be created; without, exactly when 0 <= inner <= outer and an outer working angle is given.", "quantifier": "all sizes, paddings, complex fields, apodizers, masks and stops", "why_tests_cant": "linear and energy laws over infinitely many fields and masks", "anchors": ["specula/processing_objects/abstract_coronagraph.py:Coronagraph.trigger_code", "specula/processing_objects/abstract_coronagraph.py:Coronagraph.post_trigger", "specula/processing_objects/abstract_coronagraph.py:Coronagraph.__init__", "specula/processing_objects/apodizer_coronagraph.py:APPCoronagraph", "specula/processing_objects/apodizer_coronagraph.py:PAPLCoronagraph.__init__", "specula/processing_objects/vortex_coronagraph.py:VortexCoronagraph", "specula/processing_objects/four_quadrant_coronagraph.py:FourQuadrantCoronagraph", "specula/processing_objects/focal_plane_filter.py:FocalPlaneFilter"]}
{"id": "C102", "title": "Masks of pupils", "statement": "A mask is made exactly for sides of two pixels or more (otherwise ValueError). A pixel is open exactly when its centre, in units of half the side, lies outside the inner and inside the outer radius (round) or strictly between the two half sides (square); inverse swaps open and closed; missing diameters are 0 and 1. A centred mask is symmetric under both mirrors and under transposition; a larger diameter opens more; a round mask with obstruction is the full disc minus the disc of the obstruction. The mask made by default is the disc of the circular mask class on square frames. The class masks exactly the pixels whose centre is farther than the radius from the centre; the annular class masks in addition the inner disc and needs an explicit centre; the list of unmasked pixels is sorted and complete. Disproved: the same complement law for square obstructions; centring on the nearest pixel (the centre always moves to the first pixel).", "quantifier": "all sizes, diameters, centres and flags", "why_tests_cant": "all sizes and rational coordinates", "anchors": ["specula/lib/make_mask.py:make_mask", "specula/lib/mask.py:CircularMask", "specula/lib/mask.py:AnnularMask"]}
{"id": "C103", "title": "Geometry of Fourier transforms", "statement": "The geometry is refused exactly when the field of the transform exceeds the largest accepted field. Otherwise the resolution factor is the least that reaches the smallest accepted field, the mask cuts the field to the requested one when it is larger, so what is left lies between the smallest accepted and the requested field. The total size is even and within one pixel of the requested size, the padding is even, and sampling plus padding is the total for even samplings and off by one for odd ones. With at least one pixel per lambda/D the padding is not negative and the padded pupil fits the array except for an unpadded pupil of 4k+1 pixels. The oversampling for a pixel size is refused exactly when the pixel is larger than the one of the unpadded image; otherwise the image has a whole number of pixels, not fewer than the pupil, no other number gives a closer pixel size and a size that can be reached is reached. Oversampling and pixel size together are refused. Disproved: the field reached is below the largest accepted field.", "quantifier": "all pupils, fields, tolerances, resolutions, pixel sizes", "why_tests_cant": "rounding of all rational inputs", "anchors": ["specula/lib/calc_geometry.py:calc_geometry", "specula/lib/calc_psf.py:calc_psf_geometry", "specula/lib/calc_psf.py:calc_psf_sampling"]}
{"id": "C104", "title": "Radial profile, width and encircled energy", "statement": "The profile has one entry per ring of width one that contains pixels, in increasing order, with the number of pixels, the mean value and the mean distance of the ring; the counts add up to the pixels, values times counts to the image; the mean distance stays in its ring, the distances increase, the values stay between the extremes of the image, and the profile is linear in the image. The encircled energy computed with the counts is the share of the image inside the outer radius of the ring; of a profile that is nowhere negative it rises to one; without counts a uniform profile gives the ratio of the areas whose borders are halfway between the distances. The lookup is piecewise linear through the points, exact at the points, constant outside, and rising with a rising curve. The width is twice the distance at which the line between two neighbours reaches half of the peak; it does not change with the brightness and scales with the unit of distance. What the PSF object reports for a brighter star is the same, and its encircled energy is the share of the PSF itself. Refused exactly for different sizes. Disproved: the width stays within the image (it does not when the peak is not in the middle).", "quantifier": "all images, centres, profiles, distances", "why_tests_cant": "means and cumulated sums of arbitrary images", "anchors": ["specula/lib/radial_profile.py:compute_radial_profile", "specula/lib/radial_profile.py:compute_fwhm_from_profile", "specula/lib/radial_profile.py:compute_encircled_energy", "specula/lib/radial_profile.py:get_encircled_energy_at_distance", "specula/processing_objects/psf.py:PSF._compute_profile_metrics"]}
{"id": "C105", "title": "Minimum mean square error reconstructor", "statement": "With the inverted covariances N of the noise and P of the modes, and the interaction matrix A, the modes W s reconstructed from slopes s solve the normal equations (A'NA + P) x = A'N s, so they minimise the weighted misfit plus the weighted modes, and nothing else does when P is positive definite. W equals Cx A'(A Cx A' + Cz)^-1; without prior, modes measured without noise are reconstructed exactly. Covariances that are not inverted yet give the same after inversion, which is right for diagonal matrices without zeros and for invertible matrices with an entry of at least 1e-10 off the diagonal. One noise variance per sensor gives every sensor the same number of slopes; left over slopes, or a zero variance, make the result infinite. From an interaction matrix, one variance can be given as number, list, array or matrix; a list of variances is a diagonal matrix. Disproved: the inverse of a small covariance (correlations below 1e-10 are dropped); with inverted covariances a noisier sensor counts less (variances are used as inverse variances). Never works: an array of two or more variances; no noise at all unless there are as many modes as slopes, or one mode.", "quantifier": "all interaction matrices, covariances, slopes", "why_tests_cant": "optimality over all modes is a statement about infinitely many alternatives", "anchors": ["specula/lib/mmse_reconstructor.py:compute_mmse_reconstructor", "specula/data_objects/intmat.py:Intmat.generate_rec_mmse"]}
{"id": "C106", "title": "Demodulation of a signal", "statement": "In one pass, the amplitude and phase are the modulus (not negative) and the angle in (-pi, pi] of twice the component at the carrier of the signal minus a line. Cumulated, the amplitude is the mean of those of the last windows, each from the first sample on and free of its own line; at most as many windows as samples, and with a whole number of samples per period a whole number of periods, as many as fit. A constant does not matter, the amplitude scales with the signal and the phase stays; cumulated, the amplitude is not disturbed by a drift. For a tone with a whole number of periods the error of the phasor is exactly the difference of its ends divided by the number of samples and the sine of half a step, so amplitude and phase are exact when the ends are equal, and the amplitude errs by no more than that. Refused exactly for no samples or a sampling frequency of zero. Disproved: in one pass a drift has no amplitude; a tone of unit amplitude is measured as one (one period of four samples gives 5/8 of the power).", "quantifier": "all signals, frequencies, lengths", "why_tests_cant": "trigonometric sums of any length", "anchors": ["specula/lib/demodulate_signal.py:demodulate_signal"]}
{"id": "C107", "title": "Geometry of a Shack-Hartmann sensor", "statement": "Setting up a sensor of positive sizes succeeds, unless the turbulence pixel is requested and is not finer than the sensor pixel (ValueError). The interpolated phase then has the same even number of pixels for every subaperture, at least as many pixels as the field and as the requested oversampling, and fewer than two per subaperture more than needed; the rows of subapertures use each of its rows exactly once. The pixel of the transforms is the diffraction limit of a subaperture divided by a positive integer and is finer than the sensor pixel; the integer is 1 or 2 in two cases, and otherwise one of ten, chosen so that the wanted field of view is met within 2% whenever one of the ten allows it. The field of view kept is the even number of such pixels nearest to the requested one, centred in the transform, never empty, and fits in it when there is at least one sample per subaperture. Setting up again changes nothing. Disproved: that the field of view fits with fewer pixels than subapertures; and, with 64 bit floating point numbers, that rows of the interpolated field can be split among subapertures (47 pixels, 8 subapertures, default oversampling). Disproved too: that SH and DistributedSH, with their default arguments, interpolate the field to the same size.", "quantifier": "all wavelengths, pixels, fields of view, numbers of subapertures and of pixels", "why_tests_cant": "a search over resolutions followed by roundings, and floating point truncation", "anchors": ["specula/processing_objects/sh.py:SH._set_in_ef", "specula/processing_objects/sh.py:SH._calc_geometry", "specula/processing_objects/sh.py:SH.setup", "specula/data_objects/lenslet.py:Lenslet"]}
{"id": "C108", "title": "Images of Shack-Hartmann sensors", "statement": "With arrays that hold zeros around the field, every pixel of every subaperture of a Shack-Hartmann sensor holds exactly the light that the field of that subaperture, and of no other, sends into that pixel. A constant phase of a subaperture changes nothing. Light is not created, and none is lost if nothing is cut away or masked. A field without phase gives a spot that is point symmetric about the centre of the pixels of the subaperture, so that its centroid is there. A tilt of a whole number of pixels moves the spot by that number of pixels. The scaled image holds the photons of the pupil. Sensors triggered one after the other, sharing arrays of the same device, precision and shape, in any order and any number of times, all give correct images if those that share arrays also have the same number of samples for each subaperture. A sensor whose rows are split evenly among several workers gives the same image. Disproved: sensors that share arrays but have different numbers of samples per subaperture (with two sensors that setup accepts, one of two equally lit subapertures gets four times the light of the other); a number of workers that does not divide the rows (the last rows are never written).", "quantifier": "all fields, numbers of subapertures and samples, masks, sequences of sensors", "why_tests_cant": "the cache of arrays is shared by all sensors of a process, so an image depends on the history of other objects; a test has one sensor", "anchors": ["specula/processing_objects/sh.py:SH.trigger_code", "specula/processing_objects/sh.py:SH.post_trigger", "specula/processing_objects/sh.py:SH._zeros_common", "specula/processing_objects/sh.py:SH._get_tlt_f", "specula/processing_objects/distributed_sh.py:DistributedSH"]}
{"id": "C109", "title": "Images of the modulated pyramid", "statement": "The image of a pyramid sensor is, for every field, modulation and focal plane mask, the sum over the points of the modulation of the light of four images of the field, each made by one quarter of the focal plane and moved along both axes by half of the requested distance of the pupils; without the displacements the four images rebuild the field. A field mirrored along the columns, along the rows (with an even number of steps on a circle) or transposed (with a multiple of four steps) gives mirrored or transposed images, on the array of the transforms and on the detector. The light on the detector is the light of the pupil times the transmission of the mask times the fraction that falls on the detector, both between zero and one; a constant phase changes nothing. All points of the modulation have a weight of at least one and stay within the amplitude. A given number of steps is accepted exactly if it is a positive whole number not less than two pi times the amplitude, rounded. Disproved: that the amplitude is in units of wavelength over diameter (it is larger by p/(p-1) for p samples); that the default steps are centred (up to an amplitude of a quarter there is a single point, off the axis), are more than two pi times the amplitude, can be used (one step on a line divides by zero), or are accepted when given; that the pupils have the requested diameter when the resolution has to be increased; that any odd number of pixels can be used (99 cannot, 101 can).", "quantifier": "all fields, modulations, masks, sizes and amplitudes", "why_tests_cant": "tests compare images of one configuration with stored ones; symmetry and light hold for all fields or for none", "anchors": ["specula/processing_objects/modulated_pyramid.py:ModulatedPyramid.trigger_code", "specula/processing_objects/modulated_pyramid.py:ModulatedPyramid.post_trigger", "specula/processing_objects/modulated_pyramid.py:ModulatedPyramid.cache_ttexp", "specula/processing_objects/modulated_pyramid.py:ModulatedPyramid.calc_pyr_geometry", "specula/processing_objects/modulated_pyramid.py:ModulatedPyramid.__init__"]}
{"id": "C110", "title": "Polychromatic sensors", "statement": "The image of a polychromatic sensor (Shack-Hartmann or pyramid) at every frame is the mixture of the images that its sensors, one for each wavelength, make of the last field that arrived in time, each with its fraction of the flux, brought to the photons of the field: whenever the mixture has light, the light of the output is the photons of the source. Only the ratios of the flux factors matter, and the fractions add up to one; with sensors that deliver all the photons the output is the weighted mean of their images; with a single wavelength it is the image of that sensor. The contribution of every wavelength can be read back, and an index out of range is an IndexError. Numbers of wavelengths, flux factors and tilts that differ are a ValueError, and a pupil that is not square is refused. Disproved: that the tilts have the requested size (they are n/(n-1) times too large for n pixels). A tilt without two coordinates is noticed only at the first field.", "quantifier": "all fields, sensors, sequences of frames, wavelengths, flux factors and tilts", "why_tests_cant": "tests look at one or two wavelengths with equal factors", "anchors": ["specula/processing_objects/poly_chrom_wfs.py:PolyChromWFS.__init__", "specula/processing_objects/poly_chrom_wfs.py:PolyChromWFS._create_unit_tilts", "specula/processing_objects/poly_chrom_wfs.py:PolyChromWFS.setup", "specula/processing_objects/poly_chrom_wfs.py:PolyChromWFS.check_ready", "specula/processing_objects/poly_chrom_wfs.py:PolyChromWFS.prepare_trigger", "specula/processing_objects/poly_chrom_wfs.py:PolyChromWFS.trigger_code", "specula/processing_objects/poly_chrom_wfs.py:PolyChromWFS.post_trigger", "specula/processing_objects/poly_chrom_wfs.py:PolyChromWFS.get_wavelength_contribution", "specula/processing_objects/poly_chrom_sh.py:PolyChromSH", "specula/processing_objects/poly_crom_pyramid.py:PolyCromPyramid"]}
{"id": "C111", "title": "Optimisation of modal gains", "statement": "In every session the gain optimiser works exactly at the frames whose time is a multiple of the requested interval and not less than it; other frames change neither the gains, nor their time. For every mode the chosen gain is the first of the given number of equally spaced gains, up to the largest stable one times a factor, that has the smallest residual: spectrum of the open loop signal (measurement plus command of the previous frame) times the squared rejection, added over the frequencies. The new gain is the previous one moved by the given fraction towards the chosen one, times the change of the optical gain, times the safety factor, and never more than the largest gain; it is not negative for inputs that are not. The session never fails with at least one gain to try and optical gains different from zero; no gain to try is a ValueError, a previous optical gain or an interval of zero a ZeroDivisionError. The search of the largest stable gain tries gains in order, up to the first that is not stable. Disproved: that the running mean of the spectra has an effect; that too little history leaves the gains alone (an optimisation at the first frame puts all of them to one and reports success); that gains settle at the safety factor times the best gain (they settle lower, at s*m*b/(1-s(1-m))); that the optical gain is compensated since the last optimisation (only since the last frame); that no larger gain among those tried is stable. A mode with gain zero stays at zero.", "quantifier": "all sessions, histories, spectra, rejections, numbers of modes and configurations", "why_tests_cant": "tests run one optimisation on simulated noise; the effect of options that do nothing, and the long run, are not visible there", "anchors": ["specula/processing_objects/gain_optimizer.py:GainOptimizer.prepare_trigger", "specula/processing_objects/gain_optimizer.py:GainOptimizer.trigger_code", "specula/processing_objects/gain_optimizer.py:GainOptimizer._optimize_gains", "specula/processing_objects/gain_optimizer.py:GainOptimizer._calculate_pseudo_open_loop", "specula/processing_objects/gain_optimizer.py:GainOptimizer._calculate_max_gains", "specula/processing_objects/gain_optimizer.py:GainOptimizer._optimize_single_mode", "specula/processing_objects/gain_optimizer.py:GainOptimizer.post_trigger", "specula/data_objects/iir_filter_data.py:IirFilterData._compute_max_stable_gain_internal"]}
{"id": "C112", "title": "Zernike polynomials and their derivatives", "statement": "The number of a Zernike polynomial, starting at 1, gives its radial degree and azimuthal frequency as in Noll: degree n has the numbers after n(n+1)/2 up to (n+1)(n+2)/2, in increasing frequency; every pair of a degree and a frequency of the same parity not above it has one number (frequency zero) or one even (cosine) and one odd (sine). The value is that of the polynomial of the complex coordinate and its conjugate with the normalisation of Noll at every point, it is even or odd as its degree, and is a cosine or a sine of full amplitude on the edge; numbers below one are a ValueError. Masked pixels are zero, and the mask is exactly the outside of the unit disk. At every pixel inside, the array given as derivative along x or y, which is computed as a combination of polynomials with lower numbers, is the derivative of the polynomial, whatever derivatives were asked before; outside it is zero. Disproved: that number zero is refused for derivatives.", "quantifier": "all numbers, points, pupils, pixels and orders of calls", "why_tests_cant": "tests compare a few low orders with finite differences to a tolerance; a wrong coefficient of a higher order, or a cached matrix of an earlier call, is not seen", "anchors": ["specula/lib/zernike_generator.py:ZernikeGenerator.degree", "specula/lib/zernike_generator.py:ZernikeGenerator._rnm_jacobi", "specula/lib/zernike_generator.py:ZernikeGenerator._polar", "specula/lib/zernike_generator.py:ZernikeGenerator.getZernike", "specula/lib/zernike_generator.py:ZernikeGenerator.cartesian_coordinates", "specula/lib/zernike_generator.py:ZernikeGenerator._computeDerivativeCoeffX", "specula/lib/zernike_generator.py:ZernikeGenerator._computeDerivativeCoeffY", "specula/lib/zernike_generator.py:ZernikeGenerator._derivativeCoeffX", "specula/lib/zernike_generator.py:ZernikeGenerator._derivativeCoeffY", "specula/lib/zernike_generator.py:ZernikeGenerator._computeDerivativeX", "specula/lib/zernike_generator.py:ZernikeGenerator._computeDerivativeY", "specula/lib/zernike_generator.py:ZernikeGenerator.radial_order"]}
{"id": "C113", "title": "Periodic and random signals", "statement": "A wave generator accepts its arguments exactly when the wave is known and all vectors have one length, otherwise it raises ValueError. With vectors of k elements (or none, and k copies), the element i of the output at time t is slope_i*t + amp_i*wave(2*pi*freq_i*t + offset_i) + constant_i for all times; the wave is between -1 and 1, repeats after 1/freq, changes sign after half of it; the square wave is 1 in the first half; the triangular wave is linear and symmetric. A random generator refuses an amplitude together with an rms, more zero modes than elements, and unknown distributions; its output is constant_i + amp_i times the numbers drawn (for uniform ones, within amp_i/2 of the constant). Amplitudes made from an rms are zero for the first modes, proportional to the weight (one, 1/n or n, one for n=0) of the radial order n for others, and their squares add up to the square of the rms. Disproved: that the square wave has two values; that accepted sizes never fail later; that the rms is met, and unknown laws refused, when all modes are forced to zero.", "quantifier": "all waves, arguments, times, laws, numbers of modes and numbers drawn", "why_tests_cant": "tests look at a few samples, and at statistics to a tolerance", "anchors": ["specula/processing_objects/wave_generator.py:WaveGenerator.__init__", "specula/processing_objects/wave_generator.py:WaveGenerator.trigger_code", "specula/processing_objects/random_generator.py:RandomGenerator.__init__", "specula/processing_objects/random_generator.py:RandomGenerator._generate_scaled_amps", "specula/processing_objects/random_generator.py:RandomGenerator.trigger_code", "specula/processing_objects/base_generator.py:BaseGenerator._validate_array_sizes"]}
{"id": "C114", "title": "Ideal derivative sensor", "statement": "The sensor refuses a field of view that is not positive, and needs pixels of non-zero size; a frame is accepted exactly when all pixels of its sub-apertures are in the frame, and measured when it has at least two rows, two columns and one sub-aperture. Sub-apertures do not overlap. For all phases and pupils: sub-apertures without light give zero; an inclined plane is measured exactly in each sub-aperture with light (coefficient times the scale factor), a constant added changes nothing, the measures scale with the phase, depend only on the phase within one pixel of the sub-aperture, and are between the extreme derivatives; they are the mean over lit pixels when no derivative there is zero. Disproved: that they are the mean over lit pixels for all phases (flat pixels are left out), that they are additive, that sub-apertures of one pixel measure anything, and that positions outside the grid are refused.", "quantifier": "all geometries, phases and pupils", "why_tests_cant": "tests compare one or two phases to a tolerance", "anchors": ["specula/processing_objects/ideal_derivative_sensor.py:IdealDerivativeSensor.__init__", "specula/processing_objects/ideal_derivative_sensor.py:IdealDerivativeSensor._compute_subap_indices", "specula/processing_objects/ideal_derivative_sensor.py:IdealDerivativeSensor.trigger_code"]}
{"id": "C115", "title": "Number of photons", "statement": "For a band of the table, the photons are energy (given or of the band) times time, surface and width (given or of the band) over the energy of a photon of the wavelength (given or of the band), divided by 10^(0.4 mag); the sky gives as many as a star of its magnitude. Without a band, the entry used is the first with the nearest wavelength, among all entries but the last, or all of them within 0.1 nm of sodium in the default table. Five magnitudes more give exactly one hundredth; photons are proportional to surface and time, and positive. It fails exactly for unknown tables, unknown bands, and without band and wavelength. Disproved: that band J of the second table can be used, and that its last band is found by its own wavelength.", "quantifier": "all magnitudes, bands, wavelengths, surfaces, times and overrides", "why_tests_cant": "tests check a few stars", "anchors": ["specula/lib/n_phot.py:n_phot", "specula/lib/n_phot.py:get_model", "specula/lib/n_phot.py:DefaultModel", "specula/lib/n_phot.py:Maory1Model"]}
{"id": "C116", "title": "Petal modes", "statement": "Petal modes need a non-zero number of petals and a mask of the given size, and nothing else; the errors are of two stated kinds. The result has one piston per petal, or three modes per petal with tip and tilt, each with one value per pixel of the mask, and one centre per petal. Each pixel of the mask belongs to exactly one petal, the one of its angle (without the special last petal): its piston is the mask there and all others are zero, so pistons sum to the mask. Tip and tilt of a petal are zero outside the petal, have zero sum, unit standard deviation over petals of more than one column (row) of a 0/1 mask, and pistons are orthogonal to all other modes. Turning by one petal permutes the pistons, a full turn changes nothing. Centres are (0,0) for empty petals and otherwise inside the frame. Disproved: that petals do not overlap with the special last petal.", "quantifier": "for all sizes, numbers of petals, rotations, masks and pixels", "why_tests_cant": "Tests draw a few petal modes for given masks; they cannot cover all rotations and all masks, nor the pixels exactly on the border of two sectors.", "anchors": ["specula/lib/compute_petal_ifunc.py:compute_petal_ifunc"]}
{"id": "C117", "title": "Calibration of the pupils of a pyramid", "statement": "Pupils are found in images of at least two rows and columns, one in each square around the middle, with the centre in the square; they depend only on these squares and not on the flux. A pupil has a radius exactly when its square has a positive pixel (thresholds up to one); on 0/1 images the centre is the centre of mass of lit pixels and pi r^2 their number. Indices from intensity are exactly the pixels of the annulus of each pupil in increasing order, padded with -1; from geometry they are the pixels of the first pupil with the largest radius moved by the nearest integers, those leaving the image being dropped; without losses each row holds corresponding pixels. All indices are -1 or in the image, and no row is empty. Without obstruction, calibration succeeds exactly when each square has light. Frames are added until a success, and failures keep the sum; only the sum matters. Obstructions are zero or within stated bounds. The errors are ValueError, or ZeroDivisionError for a zero period. With inputs changing the parameters, failures are reported and the previous pupils kept; a value which is not a number raises AttributeError, and a missing period TypeError. Disproved: that rows hold corresponding pixels when some are lost, and that a uniform image has no obstruction.", "quantifier": "for all images, sizes, thresholds, sequences of frames and inputs", "why_tests_cant": "Tests calibrate a few simulated pupils; they do not cover pupils cut by the border, small pupils or changing parameters.", "anchors": ["specula/processing_objects/pyr_pupdata_calibrator.py:PyrPupdataCalibrator.trigger_code", "specula/processing_objects/pyr_pupdata_calibrator.py:PyrPupdataCalibrator._analyze_pupils", "specula/processing_objects/pyr_pupdata_calibrator.py:PyrPupdataCalibrator._analyze_single_pupil", "specula/processing_objects/pyr_pupdata_calibrator.py:PyrPupdataCalibrator._detect_obstruction", "specula/processing_objects/pyr_pupdata_calibrator.py:PyrPupdataCalibrator._radial_profile", "specula/processing_objects/pyr_pupdata_calibrator.py:PyrPupdataCalibrator._generate_indices", "specula/processing_objects/dynamic_pyr_pupdata_calibrator.py:DynamicPyrPupdataCalibrator.prepare_trigger", "specula/processing_objects/dynamic_pyr_pupdata_calibrator.py:DynamicPyrPupdataCalibrator.trigger_code", "specula/processing_objects/dynamic_pyr_pupdata_calibrator.py:DynamicPyrPupdataCalibrator.post_trigger"]}
{"id": "C118", "title": "Calibration of the sub-apertures of a Shack-Hartmann sensor", "statement": "When the number of lenslets divides the rows of the image, the image is cut in equal tiles, every pixel in one, and the tiles kept are those whose flux is above the threshold times that of the brightest, with their place in the grid and all their pixels; an error is raised if none is. With a positive flux the brightest tile is kept exactly when the threshold is under one. For other sizes the sub-apertures have the nearest number of pixels and the same holds if that number is even; if it is odd, rounding may leave one pixel too few and a ValueError. What is stored is always made of full squares inside the image, at distinct places of the grid, with no pixel in common if the image has enough pixels (otherwise neighbours may overlap). The unit of the intensities does not matter. The mask shows the places kept. Exactly one of the two inputs must be given, and a name.", "quantifier": "All images, numbers of lenslets and thresholds (exact arithmetic), all names and inputs.", "why_tests_cant": "Tests use one image whose size is a multiple of the number of lenslets; the effect of rounding ties depends on the parity of the sizes.", "anchors": ["specula/processing_objects/sh_subap_calibrator.py:17-123", "specula/data_objects/lenslet.py:33-49", "specula/data_objects/subap_data.py:47-65"]}
{"id": "C119", "title": "Random phase screens", "statement": "The screen of a seed is cut in squares of the size of the pupil, row by row, every pixel used once; they are shown in order, each for the given number of triggers, and then the seed grows by one. With one trigger per square, trigger n shows square n mod m^2 of seed s + n / m^2. The exact seed and square of every trigger are given for all intervals. The phase in nm is the screen times 500 / 2 pi (pitch / r0)^(5/6) times the square root of the airmass, whatever the wavelength, and grows with the power 5/6 of the seeing. All outputs get the same phase, the pupil stop and the time. Errors: a screen smaller than the pupil or a seed under 1 (ValueError), an interval of zero (ZeroDivisionError). Disproved: that a square is kept for its whole interval (from the second round on, the first square changes seed at each trigger), and that any source name is accepted (names with _layer raise KeyError).", "quantifier": "for all sequences of triggers, screens, sizes, intervals, seeings and source names", "why_tests_cant": "Tests run one or two triggers; the change of seed happens after thousands of triggers with the default sizes.", "anchors": ["specula/processing_objects/atmo_random_phase.py:62-220"]}
{"id": "C120", "title": "Plots and printing of values", "statement": "A plot of values draws one line for each value, with the last histlen values given and their times (or the numbers of the iterations, from 1); the plot of a vector does so for the elements asked for that exist, in that order and up to the limit; the plotter of a number numbers its points from 0. A vector of another size leaves the history as it was and shows a message. If the first frame of a plot fails, nothing is ever drawn. Printing: the first trigger is printed, printed times are at least the interval apart, one that is not printed comes less than the interval after the last printed, and with an interval of m triggers one in m is printed; all the selected values of a vector are printed, ten at most of larger arrays, with dots exactly when there are more. Disproved: that iterations are numbered with a history of one element, that a plot recovers after a bad value (its lines stay off the axes and get more abscissae than ordinates), and that only values given are drawn (zeros after the number of values changes).", "quantifier": "for all sequences of frames, lengths of the history, numbers of values, selections, times and intervals", "why_tests_cant": "Tests of displays check that a figure is made; the contents of histories past their length are not looked at.", "anchors": ["specula/display/plot_display.py:23-155", "specula/display/plot_vector_display.py:40-270", "specula/display/base_display.py:59-106", "specula/display/data_plotter.py:91-113", "specula/processing_objects/data_print.py:30-102"]}
{"id": "C121", "title": "Analysis of a stored simulation in other directions", "statement": "For a stored simulation whose propagation is called prop, the analyser builds a replay whose propagation has exactly the given directions as sources, in order, with one PSF (or analysis of modes, or stored field) for each of them and every other object as in the targeted replay; each stored result goes to the file that is read back for its source when the texts of the numbers have no sign. When all the files exist they are the results whatever the simulation would give, otherwise (or when forced) the simulation runs and its files are read. Downsampled inputs raise ValueError. Parameters for the analysis of modes taken from the first mirror at the ground keep those of the mirror, and have a number of modes and a type unless influence functions are given. Refuted: two directions given as rows are read as a row of radii and one of angles; distinct directions may share a file; results for other parameters of the modes are reused; a negative radius or angle makes the stored references invalid.", "quantifier": "every parameter dictionary, table of directions, wavelength, pixel size, directory of files and simulation", "why_tests_cant": "the tests use one stored simulation with non-negative directions and one set of parameters", "anchors": ["specula/field_analyser.py:79-168", "specula/field_analyser.py:170-243", "specula/field_analyser.py:265-443", "specula/field_analyser.py:511-658", "specula/field_analyser.py:741-800"]}
{"id": "C122", "title": "Tracking of mis-registrations", "statement": "The estimator accepts gains and forgetting factors in (0, 1] only, as many carriers as modes and initial parameters of the right number. An estimation is done at the first sample that is at least the interval after the last estimation and has ten samples collected, and uses exactly the samples since the last estimation; the outputs are those of the last estimation, the matrix being that of the parameters given. Iterations stop at the first one whose weighted error is below the threshold or at the maximum number. Sensitivities are exact when the matrix is affine in the parameters; the optical gains are recovered when the measured matrix is the nominal one with scaled modes; for orthogonal sensitivities the correction of a parameter is its error times a factor between 0 and 1, so that without forgetting errors shrink and keep their sign; a parameter that is not perturbed is only multiplied by the forgetting factor. Slopes without modulation raise ZeroDivisionError. Refuted: with forgetting, parameters that match the measure are not kept.", "quantifier": "every sequence of times and slopes, configuration, nominal matrix, pseudo-inverse and demodulation", "why_tests_cant": "the tests run a few estimations for one sensor and compare the final parameters within a tolerance", "anchors": ["specula/processing_objects/base_sprint_estimator.py:134-165", "specula/processing_objects/base_sprint_estimator.py:236-261", "specula/processing_objects/base_sprint_estimator.py:291-389", "specula/processing_objects/base_sprint_estimator.py:401-518"]}
{"id": "C123", "title": "Modal bases from influence functions", "statement": "Influence functions whose columns are not the pixels of the pupil, and an oversampling below 2, raise ValueError. Removing modes that are orthogonal leaves influence functions with no component on any of them. The covariance of turbulence of the actuators is symmetric and non-negative. When the two decompositions used are right and the values of the modes kept are not zero, the modes after the Zernike ones are orthonormal on the pupil and diagonalise the covariance of turbulence, with the returned values; with a limit on the condition number at least one mode is kept and the kept ones respect it. With Zernike modes the commands give exactly the Zernike modes and the other modes up to a multiple of what the mirror makes of piston. Refuted: modes given to be filtered are removed (only their number is used); without Zernike modes the commands give the modes.", "quantifier": "every number of actuators and pixels, influence functions, spectrum, removed modes and limits", "why_tests_cant": "the tests build one basis of one circular mirror and compare it with a stored one", "anchors": ["specula/lib/modal_base_generator.py:72-175", "specula/lib/modal_base_generator.py:177-373"]}
{"id": "C124", "title": "Extended sources", "statement": "Unknown kinds of source or sampling, a disc or Gaussian without size and a PSF without pixel scale raise ValueError. Points of a disc are inside it and their tilts balance; a disc has no point exactly when half its diameter in steps rounds to at most 1. Tilts are those of the angles; the fluxes of the points add to one, and are positive for discs and Gaussians. With layers, every layer has the points of the flat source moved by its offset, with its share of the light, and a focus that is zero at the height of focus and positive above it (infinite without a height of focus). With a flux threshold exactly the points above that fraction of the mean are kept, at least one for a fraction below 1. The points of a Gaussian on a grid are exactly the centres of cells of one step where it is at least a tenth of its largest value there, and balance. The rings of a disc are inside it. Polar sampling of a PSF with m rings has 1+3m(m-1) points; a point from a PSF takes the light of the image at its own position in pixels from the centre (in rings, moved to the nearest edge). Numbers of points are rounded to the nearest integer, halves to even. A new PSF replaces the points only for a source from a PSF and if it is not zero; it is cropped or padded around its centre with crop_psf, and otherwise refused with ValueError if its size differs. Refuted: a disc always has light; light is kept by the threshold; an image with its light in the middle gives points centred in the middle.", "quantifier": "every configuration, PSF and sequence of updates", "why_tests_cant": "the tests use one size per kind of source and compare numbers of points", "anchors": ["specula/processing_objects/extended_source.py:129-178", "specula/processing_objects/extended_source.py:180-380", "specula/processing_objects/extended_source.py:382-699", "specula/processing_objects/extended_source.py:709-734"]}
{"id": "C125", "title": "Curvature sensor and laser launch telescope", "statement": "The grid of the curvature sensor has an even number of pixels, at least those needed for the pixel scale and oversampling and less than two more, and pixels finer than those wanted by at least the oversampling, which is never below 1. A field of view inside the grid is cut in its middle up to one pixel; a larger one gives only the last pixels, half as many as those missing. An image with light has exactly the light of the field in the pupil, one without is unchanged. The other sign of the defocus exchanges the two images, and without defocus they are equal. A laser launch telescope with a position needs the simulation parameters (ValueError), its beacon is at the height times the airmass; one with three coordinates and two tilts is restored from its file as it was, fewer raise IndexError, another version ValueError. Refuted: a field of view larger than the grid is given whole; a telescope without position is restored without position.", "quantifier": "every configuration, pitch and field", "why_tests_cant": "the tests use one field of view smaller than the grid, and check that files can be read", "anchors": ["specula/processing_objects/curvature_sensor.py:94-165", "specula/processing_objects/curvature_sensor.py:174-218", "specula/data_objects/laser_launch_telescope.py:45-112"]}
{"id": "C126", "title": "Low-pass filters", "statement": "A low-pass filter is refused with ValueError if both an amplification and an order are given, for an odd order other than 1 or a negative one, for a frequency of at least half the sampling frequency, and for amplifications that are neither one nor as many as the frequencies. Otherwise each frequency has one row with order+1 coefficients after zeros (three with an amplification); its gain at frequency zero is one, and for even orders and with an amplification its gain at the highest frequency is zero. For positive frequencies the pole of order 1 is between 0 and 1, and even orders are products of sections whose poles are inside the unit circle. Refuted: a filter can be made with the default order (TypeError); accepted filters are stable (negative frequencies are accepted).", "quantifier": "every list of frequencies and amplifications, order and sampling frequency", "why_tests_cant": "the tests design filters of order 2 at a few frequencies and compare with stored values", "anchors": ["specula/processing_objects/low_pass_filter.py:13-36", "specula/data_objects/iir_filter_data.py:853-921", "specula/data_objects/iir_filter_data.py:923-973"]}
{"id": "C127", "title": "Spatial frequencies of phase screens", "statement": "For an even size 2h the matrix of spatial frequencies has at (i,j) the squared distance from (h-1,h-1): zero there only, symmetric, largest in the last element. The shift applied before the Fourier transform brings each to where the transform has that frequency (k up to half the size, k minus the size above). Odd sizes above one and negative sizes raise ValueError. Refuted: the null frequency is in the last element, as documented.", "quantifier": "every size", "why_tests_cant": "the matrix is only used inside random phase screens, whose tests check statistics at one size", "anchors": ["specula/lib/calc_spatialfrequency.py:4-36", "specula/lib/calc_phasescreen.py:84-91"]}
{"id": "C128", "title": "Refractive index of air", "statement": "get_refractive_index gives each wavelength its own value, in order: a number for one wavelength, a vector for more, IndexError for none. Below 1.3 micrometres dry air follows the ideal gas law (proportional to pressure over absolute temperature) and has the standard refractivity at 15 degrees and 101325 Pa; from 0.2 micrometres the value is positive and falls with the wavelength; humidity acts linearly, and vapour alone at 20 degrees and 1333 Pa has the refractivity of vapour. Above, the table is the one whose range has the wavelength, and the value is the polynomial of its coefficients in the wave number and the three conditions, the first coefficient at the reference. Refuted: outside the ranges the nearest table is used; the table of K always is.", "quantifier": "all wavelengths, temperatures, pressures, humidities and coefficients", "why_tests_cant": "tests compare a few wavelengths with published values within tolerances", "anchors": ["specula/lib/air_refraction.py:97-208"]}
{"id": "C129", "title": "Chromatic displacement of layers", "statement": "A propagation with the chromatic effect needs a reference wavelength and an altitude, or ValueError. A layer is not displaced without the effect, at the reference wavelength, at the height of the telescope, at the zenith, or if it is not atmospheric. Its displacement is the difference of the refractive indices times the difference of the pressures at the telescope and at the layer, the secant and the tangent of the zenith angle, over gravity and density. Exchanging source and reference wavelengths reverses every displacement. Away from the zenith a source redder than the reference (200 to 1300 nm) has positive displacements, larger in layers of lower pressure. Displacements do not depend on the other layers.", "quantifier": "all wavelengths, layers, heights and zenith angles", "why_tests_cant": "tests check a few wavelengths and one profile of layers", "anchors": ["specula/processing_objects/atmo_propagation.py:123-139", "specula/processing_objects/atmo_propagation.py:328-392", "specula/processing_objects/atmo_propagation.py:445-445"]}
{"id": "C130", "title": "Average spot of a sensor", "statement": "SpotMonitor sums the sub-apertures pixel by pixel. With a fit, model plus residual is the sum, chi2 is the mean square residual, the parameters are those of the fit and the frame is a success; without, model and residual are zero, chi2 is not a number, the spot is a centred guess and the frame is not a success. The guess of the sky is made from each pixel of the first and last rows and columns, once. Uniform light changes only the guess of the sky; the guess of the amplitude is positive. Only pixels outside the image and a zero initial alpha raise errors. Refuted: a frame reported as a success has the parameters of the fit.", "quantifier": "all images, sub-apertures and results of the fitter", "why_tests_cant": "tests fit a few synthetic spots, and no test makes the fit fail", "anchors": ["specula/processing_objects/spot_monitor.py:114-158", "specula/processing_objects/spot_monitor.py:160-238"]}
{"id": "C131", "title": "Focal mask of the Zernike sensor", "statement": "For an even focal plane the mask has its size. A pixel has half the phase shift (in waves) when its centre is inside the circle of the given radius in units of lambda/D about the centre of the plane, and zero otherwise; the mask is symmetric in both axes and in their exchange; a radius of zero or less gives no spot. Refuted: for odd planes too the mask has their size.", "quantifier": "all samplings, paddings, radii and shifts", "why_tests_cant": "tests build one sensor and look at the output of a frame", "anchors": ["specula/processing_objects/zernike_sensor.py:46-75"]}
{"id": "C132", "title": "Rotational shearing interferometer", "statement": "CiaoCiaoSensor accepts a positive size, a flux fraction in [0,1], magnifications from 1e-6 and a tilt of one or two values, otherwise ValueError; one value is a tilt along x. In each pixel half a wave of tilt reverses the fringes about the sum of the branches, between zero and twice that; a phase common to the branches is not seen; with all the flux in one branch there are no fringes. A normalised frame has the photons of the input unless it is dark, and does not depend on the brightness of the fields.", "quantifier": "all fields, tilts, fluxes and resamplings", "why_tests_cant": "tests use a few fields and one flux fraction", "anchors": ["specula/processing_objects/ciao_ciao_sensor.py:89-116", "specula/processing_objects/ciao_ciao_sensor.py:141-148", "specula/processing_objects/ciao_ciao_sensor.py:207-244"]}
{"id": "C133", "title": "Optical links with satellites", "statement": "calc_paa gives the angle 2v/c. The effective wind of a layer is the vector sum of the wind and of a sweep proportional to the height of the layer: its speed is that of the wind for an object at rest or a layer on the ground, and otherwise between the difference and the sum of the two. While light travels the height of the object a layer is swept by its height times the tangent of the angle. The uplink and downlink delays of a layer add to the return trip to the object, and the uplink delay is the larger below the object. Refuted: the effective direction is that of the effective wind (a wind at 90 degrees is reported at 45, because the second component is passed to arctan as its output array).", "quantifier": "all speeds, heights, directions and zenith angles", "why_tests_cant": "the tests of the direction use fast winds at plus and minus 90 degrees, where the arc tangent of one component rounds to the same value", "anchors": ["specula/lib/fsoc_lib.py:3-16", "specula/lib/fsoc_lib.py:19-49", "specula/lib/fsoc_lib.py:52-71"]}
{"id": "C134", "title": "Noise of elongated spots", "statement": "The full matrix of calc_noise_cov_elong is symmetric and couples only the two axes of a sub-aperture. For a sub-aperture that is not truncated its block is the inverse of the covariance noise / eta (1 + beta beta^T / sigma2) of an elongation beta; a truncated one is blind along its elongation and a round spot across it. The diagonal matrix has the inverses of the variances, a quarter of them for truncated coordinates. Refuted: without elongation the two agree (the diagonal one ignores the fluxes).", "quantifier": "all elongations, fluxes, noises and fractions of truncated sub-apertures", "why_tests_cant": "tests check sizes, symmetry and signs of one geometry", "anchors": ["specula/lib/calc_noise_cov_elong.py:188-343"]}
