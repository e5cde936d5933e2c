{"id": "C01", "title": "Flag operators act index by index, including beyond the stored bits", "statement": "For any two Flags values a and b and any index i>=0, (a&b)(i) = a(i) and b(i), (a|b)(i) = a(i) or b(i), (!a)(i) = not a(i), and the in-place forms &=, |= give the same values; De Morgan's laws hold at every index even when a and b store a different number of bits or have different default (out of range) bits.", "quantifier": "all pairs of Flags values (any stored length, any default bit) and all indices i >= 0", "why_tests_cant": "The number of stored bits and the index are unbounded; a test fixes a few lengths.", "anchors": ["src/sot/flags.cpp", "include/sot/core/flags.hh", "Flags::operator&=", "Flags::operator|=", "Flags::operator!", "operator&", "operator|", "Flags::operator()"]}
{"id": "C02", "title": "A Flags value converts to true exactly when some index is set", "statement": "bool(f) is true if and only if there is an index i>=0 with f(i) true (the default bit counts for every index past the stored bits).", "quantifier": "all Flags values", "why_tests_cant": "The set of indices to examine is infinite.", "anchors": ["src/sot/flags.cpp", "include/sot/core/flags.hh", "Flags::operator bool"]}
{"id": "C03", "title": "Flags edits change exactly the addressed bit", "statement": "After any sequence of add/set/unset, reading index i returns the value written by the last edit that addressed i; set/unset past the stored bits changes nothing; add writes index size() and leaves every index different from it unchanged.", "quantifier": "all Flags values, all finite sequences of add/set/unset, all indices", "why_tests_cant": "Histories are unbounded.", "anchors": ["src/sot/flags.cpp", "include/sot/core/flags.hh", "Flags::add", "Flags::set", "Flags::unset"]}
{"id": "C04", "title": "Printing Flags and reading them back restores the stored bits", "statement": "For any Flags f, reading the text written by operator<< into any Flags g succeeds and gives g exactly the stored bits of f; text containing anything but 0, 1 and blank is rejected; the string constructor accepts exactly the same alphabet.", "quantifier": "all Flags values f, all target values g, all strings", "why_tests_cant": "Strings and bit vectors are unbounded.", "anchors": ["src/sot/flags.cpp", "include/sot/core/flags.hh", "operator<<", "operator>>", "Flags::Flags(const char*)"]}
{"id": "C05", "title": "Stack commands keep the priority order the user built", "statement": "For any sequence of push/pop/remove/up/down/clear commands the priority list is the one obtained by the documented list edits: push appends at lowest priority, pop removes the lowest priority task, remove deletes the first occurrence, up and down exchange the task with its neighbour and keep every other relative order, clear empties; tasks are never invented and only remove/pop/clear can lose one.", "quantifier": "all command sequences on all stacks", "why_tests_cant": "Command histories are unbounded.", "anchors": ["src/sot/sot.cpp", "include/sot/core/sot.hh", "src/sot/sot-command.h", "Sot::push", "Sot::pop", "Sot::remove", "Sot::up", "Sot::down", "Sot::clear", "Sot::exist"]}
{"id": "C06", "title": "Up and down are inverse moves", "statement": "When a task occurs once and is not first (resp. last), down after up (resp. up after down) restores the stack; on the first (resp. last) or an absent task the command does nothing.", "quantifier": "all stacks, all tasks", "why_tests_cant": "Stack length and position are unbounded.", "anchors": ["src/sot/sot.cpp", "include/sot/core/sot.hh", "src/sot/sot-command.h", "Sot::up", "Sot::down"]}
{"id": "C07", "title": "The control output depends on exactly the tasks in the stack", "statement": "As long as no task is pushed while it is already in the stack, after any command sequence the control signal depends on the task and jacobian signals of exactly the tasks in the stack; so a change of any stacked task is seen by the next control evaluation.", "quantifier": "all command sequences without duplicate push", "why_tests_cant": "Command histories are unbounded; a stale dependency appears only after particular histories.", "anchors": ["src/sot/sot.cpp", "include/sot/core/sot.hh", "src/sot/sot-command.h", "Sot::push", "Sot::pop", "Sot::remove", "Sot::clear", "Signal::addDependency"]}
{"id": "C08", "title": "No task enters the stack before the robot size is set", "statement": "push raises an error and leaves the stack unchanged whenever the number of joints is 0; hence the stack stays empty until setSize with a positive value.", "quantifier": "all command histories", "why_tests_cant": "Needs an invariant over all histories.", "anchors": ["src/sot/sot.cpp", "include/sot/core/sot.hh", "src/sot/sot-command.h", "Sot::push", "Sot::defineNbDof"]}
{"id": "C09", "title": "A lower priority task never disturbs a higher priority one", "statement": "For the control returned by the solver, each accepted task k keeps, on the directions it controls (retained singular directions), exactly the value it had when it was solved, whatever tasks of lower priority follow; when the task has no discarded singular value J_k u is exactly the value reached at step k.", "quantifier": "all stacks of tasks (any length, any dimensions), all jacobians and reference vectors, all thresholds, every exact singular value decomposition", "why_tests_cant": "Real valued, unbounded dimension and stack length.", "anchors": ["src/sot/sot.cpp", "include/sot/core/sot.hh", "src/sot/sot-command.h", "Sot::computeControlLaw", "updateControl"]}
{"id": "C10", "title": "Each task is solved as well as the higher priorities allow", "statement": "When all discarded singular values of task k are zero, the control after step k minimises |J_k u - e_k| among all controls that leave the higher priority tasks unchanged, and the increment is the smallest such change.", "quantifier": "all jacobians, error vectors, incoming controls and null space bases with orthonormal columns, all alternatives", "why_tests_cant": "Optimality quantifies over a continuum of alternatives.", "anchors": ["src/sot/sot.cpp", "include/sot/core/sot.hh", "src/sot/sot-command.h", "Sot::computeControlLaw", "updateControl"]}
{"id": "C11", "title": "A task whose command is too large is skipped without affecting the control", "statement": "If the squared norm of the increment a task asks for exceeds the norm limit, the control is unchanged by that task and the remaining tasks are solved as if it were absent from the stack.", "quantifier": "all stacks, norm limits and task data", "why_tests_cant": "Depends on arbitrary real data and the position of the task in the stack.", "anchors": ["src/sot/sot.cpp", "include/sot/core/sot.hh", "src/sot/sot-command.h", "Sot::computeControlLaw", "updateControl", "Sot::maxControlIncrementSquaredNorm"]}
{"id": "C12", "title": "The solver null space basis stays orthonormal", "statement": "Starting without a projector input (or with one having orthonormal columns) every null space basis passed to the next task has orthonormal columns, so the increments of successive tasks are mutually orthogonal.", "quantifier": "all stacks and task data", "why_tests_cant": "Induction over an unbounded stack.", "anchors": ["src/sot/sot.cpp", "include/sot/core/sot.hh", "src/sot/sot-command.h", "Sot::computeControlLaw"]}
{"id": "C13", "title": "The initial control input is validated and used as the starting point", "statement": "If q0 is plugged with a size other than the number of joints the evaluation raises an error; with the right size and no accepted task the control equals q0; unplugged with an empty stack raises an error; unplugged with a non empty stack starts at zero.", "quantifier": "all q0 values and stacks", "why_tests_cant": "Quantifies over all vector sizes and stack contents.", "anchors": ["src/sot/sot.cpp", "include/sot/core/sot.hh", "src/sot/sot-command.h", "Sot::computeControlLaw"]}
{"id": "C14", "title": "A task never uses a joint excluded by its control selection", "statement": "For a stack with one task, the control of every joint not selected by the task's control selection is zero, whatever the jacobian and error.", "quantifier": "all jacobians, references, selections, joints", "why_tests_cant": "Real data of any dimension.", "anchors": ["src/sot/sot.cpp", "include/sot/core/sot.hh", "src/sot/sot-command.h", "Sot::computeJacobianActivated", "Task::setControlSelection"]}
{"id": "C15", "title": "The stack listing is faithful", "statement": "The text returned by the list command determines the sequence of task names: two stacks with the same listing have the same names in the same order (names without a double quote).", "quantifier": "all stacks", "why_tests_cant": "Injectivity over all strings.", "anchors": ["src/sot/sot.cpp", "include/sot/core/sot.hh", "src/sot/sot-command.h", "command::classSot::List"]}
{"id": "C16", "title": "A task's error is the concatenation of its features' errors", "statement": "Whatever value the output buffer held before, the error of a task is the errors of its features in list order, one after the other.", "quantifier": "all feature lists, all feature errors, all previous buffer contents", "why_tests_cant": "The result depends on the history of the signal buffers.", "anchors": ["src/task/task.cpp", "include/sot/core/task.hh", "Task::computeError"]}
{"id": "C17", "title": "A task's jacobian stacks its features' jacobians", "statement": "Over any history of evaluations, from fresh output buffers, in which all features have jacobians with the same number of columns, the jacobian of the task is their rows in list order.", "quantifier": "all feature lists, all jacobians, all previous buffer contents", "why_tests_cant": "The result depends on the history of the signal buffers.", "anchors": ["src/task/task.cpp", "include/sot/core/task.hh", "Task::computeJacobian"]}
{"id": "C18", "title": "The task time derivative is the concatenation of the features' time derivatives", "statement": "When each feature's error derivative has the size of its error, the task error time derivative is their concatenation in list order and has the dimension of the task error.", "quantifier": "all feature lists and values", "why_tests_cant": "Unbounded lists.", "anchors": ["src/task/task.cpp", "include/sot/core/task.hh", "Task::computeErrorTimeDerivative"]}
{"id": "C19", "title": "The task reference is an exponential decrease of the error", "statement": "The task output has one single-valued bound per error component: -gain*e_i, minus the time derivative de_i when requested.", "quantifier": "all gains, errors and derivatives", "why_tests_cant": "Real data of any dimension.", "anchors": ["src/task/task.cpp", "include/sot/core/task.hh", "Task::computeTaskExponentialDecrease"]}
{"id": "C20", "title": "Control selection commands compose pointwise", "statement": "After any sequence of setControlSelection/addControlSelection/clearControlSelection the selection of joint i is the last value set and-ed with the values added since.", "quantifier": "all command sequences, all joints", "why_tests_cant": "Histories are unbounded.", "anchors": ["src/task/task.cpp", "include/sot/core/task.hh", "Task::setControlSelection", "Task::addControlSelection", "Task::clearControlSelection"]}
{"id": "C21", "title": "A bound reads back what was set", "statement": "After any history, a bound is either single or double; the single value is readable exactly in single mode; inf/sup are readable exactly when set in double mode since the last change of mode, and return the last value set.", "quantifier": "all histories of set/unset operations", "why_tests_cant": "Histories are unbounded.", "anchors": ["src/task/multi-bound.cpp", "include/sot/core/multi-bound.hh", "MultiBound::setSingleBound", "MultiBound::setDoubleBound", "MultiBound::unsetDoubleBound", "MultiBound::getSingleBound", "MultiBound::getDoubleBound"]}
{"id": "C22", "title": "Printed bounds read back", "statement": "Reading the text printed for a bound or a vector of bounds gives back the same bounds.", "quantifier": "all bounds and vectors of bounds with round-tripping numbers", "why_tests_cant": "Vectors are unbounded.", "anchors": ["src/task/multi-bound.cpp", "include/sot/core/multi-bound.hh", "operator<<", "operator>>"]}
{"id": "C23", "title": "The adaptive gain interpolates between its two end values", "statement": "After set(v0,vinf,tan) with v0 > vinf and tan > 0: the gain is v0 at zero error, strictly decreases with the error norm, stays in (vinf,v0], tends to vinf, and has slope -tan at zero; setConstant gives a constant gain.", "quantifier": "all parameters and all errors", "why_tests_cant": "Continuum of errors, limits.", "anchors": ["src/task/gain-adaptive.cpp", "src/task/gain-hyperbolic.cpp", "GainAdaptive::init", "GainAdaptive::computeGain"]}
{"id": "C24", "title": "setByPoint gains pass through the requested point", "statement": "After setByPoint(v0,vinf,x,p) with x<>0, p>0 the gain at error norm x is vinf + p*(v0-vinf).", "quantifier": "all parameters", "why_tests_cant": "Continuum of parameters.", "anchors": ["src/task/gain-adaptive.cpp", "src/task/gain-hyperbolic.cpp", "GainAdaptive::initFromPassingPoint"]}
{"id": "C25", "title": "The hyperbolic gain is monotone and bounded by its end values", "statement": "After set(v0,vinf,tan,d) with v0 > vinf and tan>0 the gain lies strictly between vinf and v0, decreases with the error norm, equals the mean at norm d and tends to vinf.", "quantifier": "all parameters and errors", "why_tests_cant": "Continuum of errors, limits.", "anchors": ["src/task/gain-adaptive.cpp", "src/task/gain-hyperbolic.cpp", "GainHyperbolic::init", "GainHyperbolic::computeGain"]}
{"id": "C26", "title": "A generic feature exposes exactly the selected components", "statement": "The error of a generic feature is the list of selected components of (error - reference error) in index order; its dimension is the number of selected indices and the jacobian rows are the selected rows.", "quantifier": "all errors, references, selections", "why_tests_cant": "Unbounded vectors and histories of input sizes.", "anchors": ["src/feature/feature-generic.cpp", "src/feature/feature-abstract.cpp", "src/feature/feature-posture.cpp", "FeatureGeneric::computeError", "FeatureGeneric::computeJacobian", "FeatureGeneric::getDimension"]}
{"id": "C27", "title": "The error derivative of a feature is the negated selected reference derivative", "statement": "With a reference whose derivative is plugged, errordot is minus the selected components of the reference derivative; otherwise it is zero of the feature dimension.", "quantifier": "all selections and derivatives", "why_tests_cant": "Unbounded vectors.", "anchors": ["src/feature/feature-generic.cpp", "src/feature/feature-abstract.cpp", "src/feature/feature-posture.cpp", "FeatureAbstract::computeErrorDot"]}
{"id": "C28", "title": "Posture feature: error, derivative, dimension and jacobian stay consistent", "statement": "After any sequence of selectDof commands: the dimension is the number of selected dofs, the error is state-posture on the selected dofs in order, errordot is minus the desired velocity on them, and the jacobian is the matrix that extracts the same dofs (J x = selected x).", "quantifier": "all selectDof histories, states, postures", "why_tests_cant": "Histories and sizes are unbounded.", "anchors": ["src/feature/feature-generic.cpp", "src/feature/feature-abstract.cpp", "src/feature/feature-posture.cpp", "FeaturePosture::selectDof", "FeaturePosture::computeError", "FeaturePosture::computeErrorDot", "FeaturePosture::computeJacobian"]}
{"id": "C29", "title": "Joint limit feature: error in [-1,1] exactly inside the limits and jacobian is its derivative", "statement": "The error of joint i is -1 at the lower limit, +1 at the upper limit, affine in between; the jacobian entry is the derivative of the error with respect to the joint.", "quantifier": "all joint values and limits", "why_tests_cant": "Continuum of values.", "anchors": ["src/feature/feature-joint-limits.cpp", "FeatureJointLimits::computeError", "FeatureJointLimits::computeJacobian"]}
{"id": "C30", "title": "Visual point feature: interaction matrix is the derivative of the projection", "statement": "For a point with depth Z>0 moving rigidly with the camera twist, the time derivative of the projected point equals L times the twist; a non positive or tiny depth raises an error.", "quantifier": "all points, depths and twists, all selections", "why_tests_cant": "Continuum of values.", "anchors": ["src/feature/feature-visual-point.cpp", "FeatureVisualPoint::computeJacobian"]}
{"id": "C31", "title": "The device integrates velocity commands", "statement": "In first order mode without bound checks, after n control steps with controls u_1..u_n each actuated joint equals its initial value plus dt times the sum of its controls, and in second order mode follows the constant acceleration recurrence.", "quantifier": "all control sequences, all robot sizes", "why_tests_cant": "Unbounded number of steps.", "anchors": ["src/tools/device.cpp", "include/sot/core/device.hh", "Device::increment", "Device::integrate"]}
{"id": "C32", "title": "The device never leaves the position limits when sanity checks are on", "statement": "With sanity checks enabled and position bounds with lower<=upper, after every control step each joint position is within its bounds, for every control sequence including non-finite controls.", "quantifier": "all control sequences (all IEEE doubles) and modes", "why_tests_cant": "Unbounded step sequences over all floating point values.", "anchors": ["src/tools/device.cpp", "include/sot/core/device.hh", "Device::increment", "Device::integrate", "saturateBounds"]}
{"id": "C33", "title": "The device rejects ill sized configuration commands without changing the configuration", "statement": "Every state/velocity/bounds setter either accepts a vector of the required size or raises an error and leaves all the sizes consistent: in every reachable configuration the bounds are empty or have the size of the quantity they bound.", "quantifier": "all command histories", "why_tests_cant": "Histories are unbounded.", "anchors": ["src/tools/device.cpp", "include/sot/core/device.hh", "Device::setState", "Device::setVelocity", "Device::setPositionBounds", "Device::setVelocityBounds", "Device::setTorqueBounds", "Device::setControlInputType", "Device::setSanityCheck"]}
{"id": "C34", "title": "Saturation returns the nearest admissible value and reports clamping exactly", "statement": "The result of clamping a value in [lower,upper] is inside the interval, equals the input when it was inside, is the violated bound otherwise, and the report flag is set exactly when the value was changed; a NaN passes through unreported.", "quantifier": "all IEEE doubles", "why_tests_cant": "2^192 combinations of inputs.", "anchors": ["src/tools/device.cpp", "include/sot/core/device.hh", "saturateBounds"]}
{"id": "C35", "title": "The sequencer runs each registered event at its instant, in registration order", "statement": "After any sequence of add/remove/clear, triggering at time t runs exactly the events registered for the elapsed time, in registration order, and no other.", "quantifier": "all command histories and trigger times", "why_tests_cant": "Histories are unbounded.", "anchors": ["src/tools/sequencer.cpp", "include/sot/core/sequencer.hh", "Sequencer::addTask", "Sequencer::rmTask", "Sequencer::clearAll", "Sequencer::trigger"]}
{"id": "C36", "title": "Periodic calls run each signal once every factor ticks", "statement": "After any sequence of add/rm/clear, a tick at time t recomputes exactly the registered signals whose down-sampling factor divides t, in name order, each once; over any window of factor consecutive non-negative ticks each signal is recomputed exactly once.", "quantifier": "all registration histories, all times", "why_tests_cant": "Unbounded histories and times.", "anchors": ["src/tools/periodic-call.cpp", "include/sot/core/periodic-call.hh", "PeriodicCall::addSignal", "PeriodicCall::addDownsampledSignal", "PeriodicCall::rmSignal", "PeriodicCall::runSignals", "PeriodicCall::clear"]}
{"id": "C37", "title": "Switch selects or refuses, never reads outside", "statement": "The switch output is the value of the selected input when the selection is in range (boolean selection: false=0, true=1) and an error otherwise; no input value other than the selected one influences the output.", "quantifier": "all selections and input vectors, all add/remove histories", "why_tests_cant": "Unbounded number of inputs.", "anchors": ["include/sot/core/switch.hh", "include/sot/core/variadic-op.hh", "Switch::signal"]}
{"id": "C38", "title": "The latch shows the last request", "statement": "After any sequence of turnOn/turnOff and evaluations the latch output is the last command and stays until the next command.", "quantifier": "all command histories", "why_tests_cant": "Histories are unbounded.", "anchors": ["include/sot/core/latch.hh", "Latch::turnOn", "Latch::turnOff"]}
{"id": "C39", "title": "Event triggers on rising edges and repeats with the requested period while active", "statement": "With repetition off, an event fires at exactly the ticks where the condition goes from false to true (the first tick is compared with the initial value); with a repetition of n > 0 it also fires n ticks after its last firing, again and again.", "quantifier": "all condition sequences", "why_tests_cant": "Sequences are unbounded.", "anchors": ["include/sot/core/event.hh", "src/tools/event.cpp", "Event::trigger"]}
{"id": "C40", "title": "Mailbox readers see the last posted value, never a mixture, and never block the poster forever", "statement": "Under every interleaving of posts and reads, a read returns the last posted value completed before it or reports the same previous value; freshness is reported true only when a new value was posted since the previous fresh read.", "quantifier": "all interleavings of one poster and one reader", "why_tests_cant": "Schedules are unbounded.", "anchors": ["include/sot/core/mailbox.hh", "include/sot/core/mailbox.hxx", "Mailbox::post", "Mailbox::getObject"]}
{"id": "C41", "title": "The pool maps each name to the first and only entity registered under it", "statement": "After any sequence of registrations of tasks and features, looking up a name returns the object registered under it, registering a taken name fails without replacing it, and unknown names raise an error.", "quantifier": "all registration histories", "why_tests_cant": "Histories are unbounded.", "anchors": ["src/factory/pool.cpp", "PoolStorage::registerTask", "PoolStorage::getTask", "PoolStorage::registerFeature", "PoolStorage::getFeature"]}
{"id": "C42", "title": "The FIR filter is a convolution with the latest samples", "statement": "After setting N coefficients, the k-th output is the sum over i<min(k,N) of c_i * s(k-i), for every input sequence, so outputs depend only on the last N samples.", "quantifier": "all coefficient vectors and input sequences", "why_tests_cant": "Sequences are unbounded.", "anchors": ["include/sot/core/fir-filter.hh", "src/matrix/fir-filter.cpp", "FIRFilter::compute", "circular_buffer::push_front"]}
{"id": "C43", "title": "The causal filter computes its rational difference equation", "statement": "Fed with samples x_1,x_2,... the filter output satisfies den_0 y_k = sum num_j x_(k-j) - sum_{j>=1} den_j y_(k-j) with the prehistory held constant at the first sample and its steady state; a constant input gives a constant output with zero derivatives.", "quantifier": "all filters (any orders), all input sequences", "why_tests_cant": "Unbounded sequences and orders.", "anchors": ["src/filters/causal-filter.cpp", "CausalFilter::get_x_dx_ddx"]}
{"id": "C44", "title": "The causal filter derivatives are finite differences of its output", "statement": "dx_k = (y_k - y_(k-1))/dt and ddx_k = (y_k - 2 y_(k-1) + y_(k-2))/dt^2 at every step.", "quantifier": "all filters, all input sequences", "why_tests_cant": "Unbounded sequences and orders.", "anchors": ["src/filters/causal-filter.cpp", "CausalFilter::get_x_dx_ddx"]}
{"id": "C45", "title": "The derivator telescopes", "statement": "The derivator outputs 0 first and then the finite difference divided by the period; the sum of the outputs times the period is the last input minus the first.", "quantifier": "all input sequences", "why_tests_cant": "Sequences are unbounded.", "anchors": ["include/sot/core/derivator.hh", "Derivator::computeDerivation"]}
{"id": "C46", "title": "The Euler integrator realises its transfer function", "statement": "With numerator 1 and denominator s (pure integrator), output after n steps is the initial value plus dt times the sum of the inputs; for general polynomials the state follows the controllable canonical recurrence.", "quantifier": "all coefficient vectors and input sequences", "why_tests_cant": "Sequences are unbounded.", "anchors": ["include/sot/core/integrator-euler.hh", "IntegratorEuler::integrate"]}
{"id": "C47", "title": "The exponential moving average stays within the range of its inputs and forgets geometrically", "statement": "With alpha in [0,1], every output lies in the convex hull of 0 and the inputs seen, and for a constant input c the n-th output is c(1-alpha^n).", "quantifier": "all input sequences", "why_tests_cant": "Sequences are unbounded.", "anchors": ["src/tools/exp-moving-avg.cpp", "ExpMovingAvg::update"]}
{"id": "C48", "title": "Vector selection, stacking and mixing move components without altering them", "statement": "Selecter returns the concatenation of the requested ranges, stack returns the two selected ranges one after the other, mix replaces exactly the addressed segments of the default vector.", "quantifier": "all vectors, ranges and add/set histories", "why_tests_cant": "Unbounded vectors.", "anchors": ["src/matrix/operator.hh", "VectorSelecter", "VectorStack", "VectorMix"]}
{"id": "C49", "title": "Variadic sums, products and boolean operators are the folds of their inputs", "statement": "Add returns sum c_i v_i, multiply the ordered product, and/or the conjunction/disjunction of all inputs, for any number of inputs and after any history of adding and removing inputs.", "quantifier": "all inputs and histories", "why_tests_cant": "Unbounded number of inputs.", "anchors": ["src/matrix/operator.hh", "AdderVariadic", "Multiplier", "BoolOp", "include/sot/core/variadic-op.hh"]}
{"id": "C50", "title": "Geometry conversions are mutually inverse", "statement": "Converting a homogeneous matrix to a 12-vector and back is the identity; converting a skew symmetric matrix built from v gives back v.", "quantifier": "all matrices and vectors", "why_tests_cant": "Continuum.", "anchors": ["src/matrix/operator.hh", "SE3VectorToMatrixHomo", "MatrixHomoToSE3Vector", "SkewSymToVector"]}
{"id": "C51", "title": "Twist matrices compose like rigid motions", "statement": "The 6x6 twist matrix built from a product of rigid transformations is the product of the twist matrices, and the twist of the inverse is the inverse.", "quantifier": "all rotations and translations", "why_tests_cant": "Continuum.", "anchors": ["include/sot/core/matrix-geometry.hh", "buildFrom", "src/matrix/operator.hh"]}
{"id": "C52", "title": "Operational point modification transports position and jacobian consistently", "statement": "The modified jacobian maps joint velocities to the velocity of the shifted point: translation part v + w x d, rotation part unchanged; the body version equals the world version expressed in the end frame.", "quantifier": "all positions, offsets, jacobians", "why_tests_cant": "Continuum.", "anchors": ["src/math/op-point-modifier.cpp", "OpPointModifier::jacobianSOUT_function"]}
{"id": "C53", "title": "Rotation built from a sequence of axis rotations is a rotation", "statement": "For any list of axes and angles the result is orthonormal with determinant one, and equals the ordered product of elementary rotations.", "quantifier": "all axis sequences and angles", "why_tests_cant": "Unbounded products.", "anchors": ["src/matrix/vector-to-rotation.cpp", "VectorToRotation::computeRotation"]}
{"id": "C54", "title": "The Kalman filter keeps a symmetric positive semidefinite covariance", "statement": "Starting from a symmetric positive semidefinite covariance and noise covariances, after any number of steps the covariance is symmetric positive semidefinite, and never larger than the predicted one.", "quantifier": "all models, noises and measurement sequences (innovation covariance invertible)", "why_tests_cant": "Unbounded steps, real matrices of any size.", "anchors": ["src/tools/kalman.cpp", "Kalman::computeVarianceUpdate", "Kalman::computeStateUpdate"]}
{"id": "C55", "title": "Pseudo inverse and damped inverse satisfy their defining equations", "statement": "With all non-zero singular values above the threshold the pseudo inverse satisfies the four Penrose conditions; the damped inverse equals (J^T J + l^2 I)^-1 J^T.", "quantifier": "all matrices", "why_tests_cant": "Continuum, any dimension.", "anchors": ["src/matrix/matrix-svd.cpp", "pseudoInverse", "dampedInverse"]}
{"id": "C56", "title": "The IMU orientation filter outputs unit quaternions", "statement": "From any non-zero quaternion state, after any sequence of measurements whose update is not degenerate, the quaternion has unit norm.", "quantifier": "all measurement sequences", "why_tests_cant": "Unbounded sequences of reals.", "anchors": ["src/filters/madgwickahrs.cpp", "MadgwickAHRS::madgwickAHRSupdateIMU"]}
{"id": "C57", "title": "Smooth reach ends exactly at the goal and stays on the segment", "statement": "After set(goal,n) the trajectory starts at the captured start, every point is on the segment from start to goal in linear mode, is monotone, and equals the goal for all times >= start + n.", "quantifier": "all goals, durations, times", "why_tests_cant": "Unbounded times.", "anchors": ["src/tools/smooth-reach.cpp", "SmoothReach::goalSOUT_function"]}
{"id": "C58", "title": "Joint limitator never lets a joint command step out of its limits", "statement": "Every actuated output component is the input component if the one step prediction stays strictly inside the limits and zero otherwise; free flyer components pass unchanged.", "quantifier": "all positions, limits, commands", "why_tests_cant": "Continuum.", "anchors": ["src/tools/joint-limitator.cpp", "JointLimitator::computeControl"]}
{"id": "C59", "title": "Gripper factor stays in (0,1] and stops advancing under excessive torque", "statement": "For any torque sequence each finger's increment factor stays in (0,1]; it shrinks while the torque exceeds the limit towards the limit and recovers otherwise.", "quantifier": "all torque sequences", "why_tests_cant": "Unbounded sequences.", "anchors": ["src/tools/gripper-control.cpp", "GripperControl::computeIncrement"]}
{"id": "C60", "title": "Admittance output velocity is bounded by the saturation", "statement": "Whatever the forces and gains, after every step each component of the output velocity is within plus or minus the saturation.", "quantifier": "all input sequences", "why_tests_cant": "Unbounded sequences.", "anchors": ["src/control/admittance-control-op-point.cpp"]}
{"id": "C61", "title": "CoM freezer freezes while the pattern generator is stopped", "statement": "While the pattern generator is in process the output follows the CoM; when it stops, the output is held after the settling delay at the value reached then.", "quantifier": "all histories of the process flag and CoM", "why_tests_cant": "Unbounded histories.", "anchors": ["src/tools/com-freezer.cpp", "CoMFreezer::computeFreezedCoM"]}
{"id": "C62", "title": "Joint name and id maps are mutually consistent", "statement": "After any sequence of set_name_to_id, get_id_from_name of a name returns the last id given to it, and get_name_from_id of that id returns a name whose id is that id.", "quantifier": "all histories", "why_tests_cant": "Histories are unbounded.", "anchors": ["src/tools/robot-utils.cpp", "include/sot/core/robot-utils.hh", "RobotUtil::set_name_to_id", "RobotUtil::get_id_from_name", "RobotUtil::get_name_from_id"]}
{"id": "C63", "title": "URDF and SoT joint orders are inverse permutations", "statement": "Once a permutation is set, converting joint vectors, velocities and configurations from SoT to URDF order and back returns the original values.", "quantifier": "all permutations and vectors", "why_tests_cant": "Unbounded sizes.", "anchors": ["src/tools/robot-utils.cpp", "include/sot/core/robot-utils.hh", "RobotUtil::joints_urdf_to_sot", "RobotUtil::joints_sot_to_urdf", "RobotUtil::velocity_urdf_to_sot", "RobotUtil::config_urdf_to_sot"]}
{"id": "C64", "title": "Limits and gains read back, and range checks use them", "statement": "After any history of parameter commands, limits read for an id are the last ones set, and a joint value is reported in range exactly when it is between them.", "quantifier": "all histories and values", "why_tests_cant": "Histories are unbounded.", "anchors": ["src/tools/robot-utils.cpp", "include/sot/core/robot-utils.hh", "src/tools/parameter-server.cpp", "ParameterServer::isJointInRange"]}
{"id": "C65", "title": "The joint trajectory plays each point once, in order, and holds the last", "statement": "Over any interleaving of new trajectories and steps, the posture output is the sequence of points of the accepted trajectories in order, one per step, and the last point is held when nothing is left.", "quantifier": "all trajectories and schedules", "why_tests_cant": "Unbounded histories.", "anchors": ["src/tools/joint-trajectory-entity.cpp", "src/tools/trajectory.cpp", "SotJointTrajectoryEntity::OneStepOfUpdate", "SotJointTrajectoryEntity::UpdateTrajectory"]}
{"id": "C66", "title": "Reader replays the loaded rows in order with the selected columns", "statement": "After any history of load/clear/rewind, successive evaluations return the selected columns of successive rows and the matrix output is the row-major reshape of the current row.", "quantifier": "all data files and histories", "why_tests_cant": "Unbounded data.", "anchors": ["src/traces/reader.cpp", "sotReader::getNextData", "sotReader::getNextMatrix"]}
{"id": "C67", "title": "Stop watch statistics are consistent", "statement": "After any sequence of start/stop, total is the sum of the measured intervals, minimum<=average<=maximum, and both extrema are attained.", "quantifier": "all sequences of start/stop and clock values", "why_tests_cant": "Unbounded sequences.", "anchors": ["src/utils/stop-watch.cpp", "Stopwatch::start", "Stopwatch::stop"]}
{"id": "C68", "title": "Calendar runs the always events then the events of the tick", "statement": "After any sequence of registrations, running tick t calls the always events and then the events registered for t, in registration order, and fast forward to t is the same as running 0..t.", "quantifier": "all registrations", "why_tests_cant": "Unbounded histories.", "anchors": ["src/dynamic_graph/sot/core/utils/attime.py", "Calendar"]}
{"id": "C69", "title": "Interactive loop commands are never lost", "statement": "Under every interleaving of the control thread with play/pause/once commands, after play with no later command the loop keeps running; after once it runs and stops.", "quantifier": "all interleavings", "why_tests_cant": "Schedules are unbounded.", "anchors": ["src/dynamic_graph/sot/core/utils/thread_interruptible_loop.py", "ThreadInterruptibleLoop"]}
{"id": "C70", "title": "The posture shortcut gives the same quality as the general computation", "statement": "When the last task is a posture task on all joints and the shortcut is enabled, the control is defined, serves the higher priorities, and minimises the posture error among controls that serve them.", "quantifier": "all stacks ending with a full posture task", "why_tests_cant": "Ranges over all jacobians and null spaces.", "anchors": ["src/sot/sot.cpp", "include/sot/core/sot.hh", "src/sot/sot-command.h", "Sot::enablePostureTaskAcceleration", "isFullPostureTask"]}
{"id": "C71", "title": "The control law is defined for every stack", "statement": "Evaluating the control never reads or writes outside its work buffers, whatever the tasks, including when a task changed dimension since its first resolution.", "quantifier": "all stacks and histories of task dimensions", "why_tests_cant": "Task dimensions and histories are unbounded.", "anchors": ["src/sot/sot.cpp", "include/sot/core/sot.hh", "src/sot/sot-command.h", "src/sot/memory-task-sot.cpp", "MemoryTaskSOT"]}
{"id": "C72", "title": "The control is the smallest one reaching every controlled direction", "statement": "Without the posture shortcut the control returned is the unique vector closest to the initial control (zero or q0) that gives every accepted task its reference on every direction it controls.", "quantifier": "all stacks, jacobians, references, thresholds", "why_tests_cant": "Ranges over all real matrices.", "anchors": ["src/sot/sot.cpp", "include/sot/core/sot.hh", "src/sot/sot-command.h", "Sot::computeControlLaw"]}
{"id": "C73", "title": "The one dimensional feature is half the squared error, and its jacobian the gradient", "statement": "The value of a one dimensional feature is half the sum of the squared components of its error input, and its jacobian is the gradient: when the error input varies as J v the value varies as the jacobian times v.", "quantifier": "all error sizes, values, jacobians and velocities", "why_tests_cant": "Ranges over all real vectors and matrices.", "anchors": ["src/feature/feature-1d.cpp", "Feature1D::computeError", "Feature1D::computeJacobian"]}
{"id": "C74", "title": "The device never exceeds the velocity limits when sanity checks are on", "statement": "With sanity checks enabled and velocity bounds set, the velocity applied to the joints and shown by the velocity signal is within the velocity bounds after every control step.", "quantifier": "all bounds, control sequences and periods, in IEEE arithmetic", "why_tests_cant": "Ranges over all control sequences including non finite values.", "anchors": ["src/tools/device.cpp", "Device::integrate", "saturateBounds"]}
{"id": "C75", "title": "Once its checks are accepted a device step is always defined", "statement": "After the sanity checks have been accepted, every control that is not longer than the state (as long only with a free flyer) is integrated without undefined behaviour, and a control containing a NaN leaves the robot where it is; a new device behaves so from its first step.", "quantifier": "all device configurations, controls and periods", "why_tests_cant": "Ranges over all reachable configurations and all controls.", "anchors": ["src/tools/device.cpp", "Device::integrate", "Device::setSanityCheck", "Device::Device"]}
{"id": "C76", "title": "The written graph is named after the file it is written to", "statement": "Writing the graph to dir/name.ext declares a digraph called name, for every path; a task appears in the graph exactly when it is registered, once, under its name.", "quantifier": "all file names and registration histories", "why_tests_cant": "Ranges over all strings.", "anchors": ["src/factory/pool.cpp", "PoolStorage::writeGraph", "PoolStorage::getCurrentGraphName"]}
{"id": "C77", "title": "Comparisons reduce over all components and binary sums act component by component", "statement": "A matrix comparison is true iff some component (or every component, when so configured) of the first input is smaller than (or equal to, when so configured) that of the second; the weighted sum and the difference of two vectors are computed component by component.", "quantifier": "all sizes, values and settings", "why_tests_cant": "Ranges over all vectors.", "anchors": ["src/matrix/operator.hh", "MatrixComparison", "WeightedAdder", "Substraction"]}
{"id": "C78", "title": "The temporal convolution uses exactly the latest samples", "statement": "Fed with samples of constant size, the convolution operator outputs for each component the sum over the kernel columns of the kernel coefficient times the sample of that age, samples older than the kernel having no effect.", "quantifier": "all kernels and sample sequences", "why_tests_cant": "Sequences are unbounded.", "anchors": ["src/matrix/operator.hh", "ConvolutionTemporal"]}
{"id": "C79", "title": "Gradient ascent accumulates rate times gradient", "statement": "For every history of evaluations with gradients of one size, the k-th output of GradientAscent is, component by component, the sum over the first k evaluations of the learning rate times the gradient read at that evaluation; the size is fixed by the first evaluation.", "quantifier": "all histories of gradients and learning rates", "why_tests_cant": "The value after a history depends on every earlier evaluation; tests run a few steps.", "anchors": ["src/tools/gradient-ascent.cpp", "GradientAscent::update"]}
{"id": "C80", "title": "Periodic motions are on their wave", "statement": "From the start of its motion on, every coefficient of MotionPeriod is initial amplitude plus amplitude times (1, sine or cosine) of the phase 2 pi (t - start) / period; it repeats exactly after its period and stays within the amplitude of its offset. A null period is never evaluated.", "quantifier": "all times, numbers of coefficients, types, periods, starts and amplitudes", "why_tests_cant": "Time is an unbounded range and the code mixes signed and unsigned arithmetic.", "anchors": ["src/tools/motion-period.cpp", "MotionPeriod::computeMotion"]}
{"id": "C81", "title": "Neck limitation", "statement": "The limited joint vector differs from the input only by the tilt; an admissible tilt is unchanged and another one is set to the limit for the current pan (the limit of pan zero within 1e-3 rad of pan zero).", "quantifier": "all joint vectors, ranks, linear coefficients, limits and orientations of the tilt axis", "why_tests_cant": "The limit is a function of a real-valued pan: the property quantifies over all of them and over both orientations.", "anchors": ["src/tools/neck-limitation.cpp", "NeckLimitation::computeJointLimitation"]}
{"id": "C82", "title": "Control laws", "statement": "ControlPD outputs Kp (desired position - position) + Kd (desired velocity - velocity) component by component and exactly the two error signals it used, and is defined exactly when all six vectors have one size; ControlGR outputs mass matrix times acceleration plus gravity; the binary conversion gives 0 exactly on negative integers.", "quantifier": "all vectors, matrices and sizes", "why_tests_cant": "Equality of a vector expression with the law for all sizes and values.", "anchors": ["src/control/control-pd.cpp", "ControlPD::computeControl", "src/control/control-gr.cpp", "ControlGR::computeControl", "src/tools/binary-int-to-uint.cpp"]}
{"id": "C83", "title": "Workspace clamping weights", "statement": "After any history of evaluations with rigid poses the two weight matrices of ClampWorkspace are complementary projectors (their sum is the identity, their product is zero), equal to the translations and the rotations of the operational point, and the reference is a rotation placed at the centre of the workspace.", "quantifier": "all histories of poses and evaluation times", "why_tests_cant": "The matrices are conjugated by an arbitrary rotation and kept across evaluations.", "anchors": ["src/tools/clamp-workspace.cpp", "ClampWorkspace::update"]}
{"id": "C84", "title": "Parameter servers share robots through the registry", "statement": "After any history of init, init_simple and parameter commands on any number of parameter servers, the robots registered are exactly the ones named in accepted init commands, listed once each in alphabetical order; each server speaks to the robot it was last bound to; a robot holds exactly the result of the commands addressed to it, in order, whatever server they came from; and commands before init have no effect.", "quantifier": "all numbers of servers, all histories of commands", "why_tests_cant": "Histories and numbers of servers are unbounded.", "anchors": ["src/tools/parameter-server.cpp", "src/tools/robot-utils.cpp", "ParameterServer::init", "ParameterServer::init_simple", "createRobotUtil", "getListOfRobots"]}
{"id": "C85", "title": "Hierarchical parameters read back", "statement": "After any history of parameter commands, a parameter path reads the last value set under a path with the same components, a path on the way to a set parameter reads the empty string, and any other path is reported as invalid.", "quantifier": "all histories and paths", "why_tests_cant": "Histories, depths and paths are unbounded.", "anchors": ["include/sot/core/robot-utils.hh", "include/sot/core/parameter-server.hh", "RobotUtil::set_parameter", "RobotUtil::get_parameter"]}
{"id": "C86", "title": "Mimic joints are found in the robot description", "statement": "For every robot description whose joints have a name, the extracted list is the list of the names of the joints that have a mimic element, in the order of the description, whatever other elements it has.", "quantifier": "all robot descriptions (trees of any size and depth)", "why_tests_cant": "Descriptions are unbounded trees.", "anchors": ["src/tools/robot-utils.cpp", "ExtractJointMimics::go_through", "ExtractJointMimics::get_mimic_joints"]}
{"id": "C87", "title": "Six dimensional point feature computes the relative pose", "statement": "For every selection of coordinates and for both computation frames, the dimension is the number of selected coordinates, and the error, Jacobian and error derivative are exactly the selected coordinates (in order) of the pose of the operational point seen from the reference (frame desired) or of the reference seen from the operational point (frame current), of the corresponding 6-row Jacobian, and of its drift; frame names are exactly \"current\" and \"desired\", read back as set; the command keep zeroes the error", "quantifier": "all selections, poses, references, Jacobians, buffers", "why_tests_cant": "Coordinates, poses and Jacobians range over continuous domains and the 64 selections combine with both frames", "anchors": ["src/feature/feature-point6d.cpp", "FeaturePoint6d::computeError", "FeaturePoint6d::computeJacobian", "FeaturePoint6d::computeErrorDot", "FeaturePoint6d::servoCurrentPosition"]}
{"id": "C88", "title": "Translation error of the six dimensional point feature moves as announced", "statement": "Along every differentiable motion of the operational point and of the reference, in both frames, the time derivative of each selected translation coordinate of the error is exactly its Jacobian row times the joint velocity plus its announced error derivative", "quantifier": "all differentiable rigid motions, all Jacobians, both frames, with or without reference", "why_tests_cant": "Motions are functions of real time; a finite difference test only samples approximate derivatives", "anchors": ["src/feature/feature-point6d.cpp", "FeaturePoint6d::computeJacobian", "FeaturePoint6d::computeErrorDot"]}
{"id": "C89", "title": "Rotation error of the six dimensional point feature", "statement": "Along every differentiable motion and below a half turn, the time derivative of the rotation vector error is the inverse of the right Jacobian of the exponential applied to the relative rotation velocity; the announced error derivative is the part of it due to the reference, exactly when the angle is zero or at least 1e-4, within 1e-4 of the rotation velocity otherwise; the rotation rows of the announced Jacobian are not the derivative of the rotation error", "quantifier": "all differentiable rigid motions, both frames, angle below a half turn", "why_tests_cant": "Derivatives along arbitrary motions cannot be sampled", "anchors": ["src/feature/feature-point6d.cpp", "FeaturePoint6d::inverseJacobianRodrigues", "FeaturePoint6d::computeErrorDot"]}
{"id": "C90", "title": "Six dimensional point feature gives a descent direction", "statement": "With a still reference, when the three rotation coordinates are all selected or all left out, the squared norm of the error varies as twice the error times the Jacobian times the joint velocity, so whenever the joint velocity achieves the control J qdot = -lambda e the squared error decreases at exactly the rate 2 lambda", "quantifier": "all differentiable motions, poses below a half turn, all gains", "why_tests_cant": "Stability is a statement about all motions", "anchors": ["src/feature/feature-point6d.cpp", "FeaturePoint6d::computeError", "FeaturePoint6d::computeJacobian"]}
{"id": "C91", "title": "Pose feature: relative pose and error", "statement": "For every set of joint poses and offsets, the relative pose published by the pose feature is the one that closes the loop (first frame times relative pose is the second frame). For every selection the error has one component per selected coordinate, in order, among the six of the difference between the relative pose and the desired one: the logarithm of the motion for SE(3), position difference and rotation vector for R3xSO(3). With all six selected, the error is zero exactly at the desired pose. With nothing but the second joint plugged the error compares its pose with the identity.", "quantifier": "all rigid poses of the two joints and of the offsets, all desired poses, all selections, both representations", "why_tests_cant": "The claim is about all poses and the exact logarithm; tests compare a few random poses.", "anchors": ["include/sot/core/feature-pose.hxx computefaMfb", "include/sot/core/feature-pose.hxx computeError", "include/sot/core/feature-pose.hxx getDimension"]}
{"id": "C92", "title": "Pose feature: jacobian and error derivative", "statement": "When the two joints move with velocities given by their jacobians and the desired pose moves with the velocity given to the feature, the rate of change of every selected component of the error is the corresponding row of the jacobian times the joint velocity plus the corresponding component of the error derivative, as long as the rotation error is below half a turn. Exact for SE(3). For R3xSO(3) the code takes the velocity of the reference at the current position: the statement holds up to that term, which vanishes when the reference does not turn or the positions agree. The error derivative is zero when no velocity is plugged. Jacobians of different widths are an error.", "quantifier": "all motions of the two joints and of the reference, all joint velocities, all selections, both representations", "why_tests_cant": "A derivative is a limit; tests only compare finite differences at a few configurations.", "anchors": ["include/sot/core/feature-pose.hxx computeJacobian", "include/sot/core/feature-pose.hxx computeErrorDot", "include/sot/core/feature-pose.hxx convertVelocity"]}
{"id": "C93", "title": "Pose feature: keep", "statement": "After keep, the desired pose is the current relative pose and the error is zero, for every state and selection; the relative pose itself is not changed.", "quantifier": "all states, all selections, both representations", "why_tests_cant": "It must hold at every configuration.", "anchors": ["include/sot/core/feature-pose.hxx servoCurrentPosition"]}
{"id": "C94", "title": "Pose feature: convergence", "statement": "If at all times of an interval the joint velocity makes the jacobian give minus a gain times the error (the task is executed), with a still reference and a rotation error below half a turn, every selected component of the error decreases as the exponential of minus the gain times the time. With R3xSO(3) and the three translations selected the controlled frame follows the straight line to the desired position.", "quantifier": "all trajectories, all gains, all durations, all selections, both representations", "why_tests_cant": "The claim is about all trajectories in continuous time.", "anchors": ["include/sot/core/feature-pose.hxx computeError", "include/sot/core/feature-pose.hxx computeJacobian", "include/sot/core/feature-pose.hh FeaturePose"]}
{"id": "C95", "title": "Relative 6D feature: the error is the gap to the wanted relative pose", "statement": "For a feature between two frames, the error gives the selected coordinates (position, rotation vector) of the motion from the wanted relative pose to the actual one; with all six selected it is zero exactly when the second frame, seen from the first, is where the reference wants it; initialising the desired feature makes it zero, and moving both frames together keeps it zero; a name that is not a relative feature is refused.", "quantifier": "all rigid poses, references (relative, plain, none, unreadable), selections and common motions", "why_tests_cant": "equality of poses over a continuum; every reference kind", "anchors": ["src/feature/feature-point6d-relative.cpp computeError", "src/feature/feature-point6d-relative.cpp initSdes"]}
{"id": "C96", "title": "Relative 6D feature: what the jacobian gives", "statement": "When both frames move with the robot and the wanted relative pose does not change, the jacobian times the joint velocity is the velocity of the motion from the wanted pose to the actual one; the squared error changes at twice the product of the error and of that velocity, and when the task is executed with a gain it decreases exponentially, for selections that take translation and rotation as wholes.", "quantifier": "all motions, jacobians, joint velocities, gains, horizons", "why_tests_cant": "derivatives along arbitrary motions", "anchors": ["src/feature/feature-point6d-relative.cpp computeJacobian", "src/feature/feature-point6d-relative.cpp computeError"]}
{"id": "C97", "title": "Vector feature: error, jacobian, descent", "statement": "The vector feature's error is the direction attached to the frame, seen from the world, minus the wanted direction; the jacobian is its exact rate for every motion of the robot and of the wanted direction; a joint velocity that does not push along the error never increases it; the error can vanish only if both vectors have the same length.", "quantifier": "all poses, vectors, motions, jacobians, durations", "why_tests_cant": "derivatives along arbitrary motions", "anchors": ["src/feature/feature-vector3.cpp computeError", "src/feature/feature-vector3.cpp computeJacobian"]}
{"id": "C98", "title": "Line distance feature: error and jacobian", "statement": "For two lines that are not parallel the error is zero exactly when they meet, and its absolute value times the length of the cross product of the directions is their distance; the jacobian is the rate of the error.", "quantifier": "all lines, poses, motions and jacobians", "why_tests_cant": "minimum over all pairs of points; derivatives along arbitrary motions", "anchors": ["src/feature/feature-line-distance.cpp computeError", "src/feature/feature-line-distance.cpp computeJacobian", "src/feature/feature-line-distance.cpp computeLineCoordinates"]}
{"id": "C99", "title": "Point projecter: image and depth of a point", "statement": "A point in front of the camera is projected at the ratio of its camera coordinates, and its depth is its third camera coordinate, wherever the camera is.", "quantifier": "all camera poses and points", "why_tests_cant": "continuum of poses and points; precondition of the matrix product", "anchors": ["src/feature/visual-point-projecter.cpp point3DgazeSOUT_function", "src/feature/visual-point-projecter.cpp point2DSOUT_function", "src/feature/visual-point-projecter.cpp depthSOUT_function"]}
{"id": "C100", "title": "Trajectory text is read back", "statement": "Reading the text of a joint trajectory (header, joint names, points with positions, velocities, accelerations and efforts) into a trajectory sets its sequence number, time stamp and frame, and adds exactly the names and the points of the text, in order and with their numbers; a text of another form is refused.", "quantifier": "all headers, joint names, lists of points and of numbers, all texts", "why_tests_cant": "there is no bound on the number of joints and points, and the outcome depends on where each of seven regular expressions matches in the remaining text", "anchors": ["src/tools/trajectory.cpp: RulesJointTrajectory::parse_string", "src/tools/trajectory.cpp: parse_seq", "src/tools/trajectory.cpp: parse_points", "src/tools/trajectory.cpp: Trajectory::deserialize"]}
{"id": "C101", "title": "Python matrix utilities convert poses consistently", "statement": "For every rigid transformation outside the pitch band of 0.001 rad around the vertical, and exactly at the vertical, matrixToRPY followed by RPYToMatrix returns the same matrix; inside the band the position is exact and every coefficient is reproduced up to 0.002. For angles in the usual ranges RPYToMatrix followed by matrixToRPY returns the same six numbers. RPYToMatrix builds the same matrix as the C++ conversion, quaternionToMatrix builds the rotation of a unit quaternion, generateOrthonormalM returns an orthonormal basis whose first vector is the direction of its argument, and distVector is the displacement between the two positions.", "quantifier": "every rigid transformation, every vector of angles, every vector and every pair of drawn vectors", "why_tests_cant": "The conversions have singular branches and depend on random draws: a test meets a few values, not the singular band or the measure-zero cases.", "anchors": ["src/dynamic_graph/sot/core/matrix_util.py: matrixToRPY, RPYToMatrix, rpy2tr, tr2rpy, generateOrthonormalM, quaternionToMatrix, distVector, vectorToTuple"]}
{"id": "C102", "title": "The loader runs only a live, started graph and releases what it loaded", "statement": "In every history of calls to the loader: an iteration does nothing while the graph is stopped, and otherwise gives the sensors to the current interface and then asks its control, once each, in that order (the control is not asked when giving the sensors failed); no interface is used or destroyed before its creation or after its destruction, none is destroyed twice, no library is closed more often than opened. After a history in which libraries are loaded only when none is loaded and no call raised, a clean up leaves no interface alive, no library open and an empty pool. When the device was given to the loader, cleaning up never deletes it twice.", "quantifier": "every history of calls, every library and every failure of the interface", "why_tests_cant": "The order of loading, starting, failing and cleaning up is up to the user; a test goes through one life of the loader.", "anchors": ["src/tools/sot-loader.cpp: initialization, cleanUp, oneIteration, loadDeviceInPython, ~SotLoader", "include/sot/core/sot-loader.hh: SotLoader"]}
{"id": "C103", "title": "Following a file gives every later line once and in order", "statement": "For a file extended by complete, non-empty lines that fit in the buffer, and for every interleaving of writing, looking (loop) and reading (next), the lines read by the user followed by the lines waiting are exactly the lines written between the first and the last look, in order, each once; reading is undefined only when nothing is waiting.", "quantifier": "every sequence of lines and every interleaving of writes, loop and next", "why_tests_cant": "The result depends on how the writes of another program interleave with the looks of the reader.", "anchors": ["include/sot/core/contiifstream.hh: Contiifstream, open, ready", "src/debug/contiifstream.cpp: loop, next"]}
{"id": "C104", "title": "History restores the state of the last recorded tick", "statement": "When the state of an entity is recorded at every tick from 0 on, restoring a tick t gives the position and the velocity the entity had at the last multiple of the frequency that is not after t.", "quantifier": "every frequency, every number of recorded ticks and every restored tick", "why_tests_cant": "It must hold for every tick and frequency; a test samples a few.", "anchors": ["src/dynamic_graph/sot/core/utils/history.py: History.record, History.restore"]}
{"id": "C105", "title": "Posture meta task", "statement": "MetaTaskPosture.gotoq selects exactly the joints of the limbs named in the call, gives each joint the value of the last limb that gives one and otherwise that of the requested posture (zero without one), sets the gain, and either does all of it or, when it raises, leaves the task as it was.", "quantifier": "every robot size, remembered size, posture argument, list of limbs with values, and history of earlier calls", "why_tests_cant": "the limbs overlap, the order of keywords and the class attribute shared by all tasks make the result depend on histories that no test enumerates", "anchors": ["src/dynamic_graph/sot/core/meta_task_posture.py:MetaTaskPosture.gotoq", "src/dynamic_graph/sot/core/meta_tasks.py:setGain"]}
{"id": "C106", "title": "Desired pose helpers", "statement": "goto6d and gotoNd make the reference the pose described by their argument (a point, a point with roll pitch yaw angles, or a 4x4 matrix), select the directions asked for, and set the gain as setGain says.", "quantifier": "every argument and every earlier state of the task", "why_tests_cant": "one argument is dispatched on type and size over real values; tests cover a few shapes", "anchors": ["src/dynamic_graph/sot/core/meta_tasks.py:generic6dReference, goto6d, gotoNd, setGain"]}
{"id": "C107", "title": "Operational point modifier of a meta task", "statement": "After any sequence of assignments to opmodif, the feature reads the position and the jacobian of the point moved by the last matrix, or those of the robot after False, and the attribute reads back what was assigned; the two points of a relative task do not interfere; an operational point is created exactly when the robot lacks its signals.", "quantifier": "every sequence of assignments, including refused ones, and every motion of the robot", "why_tests_cant": "plugs are changed incrementally, so the result depends on the whole sequence of assignments", "anchors": ["src/dynamic_graph/sot/core/meta_task_6d.py:MetaTask6d.opmodif, opPointExist", "src/dynamic_graph/sot/core/meta_tasks_kine_relative.py:MetaTaskKine6dRel.opmodifBase"]}
{"id": "C108", "title": "Outputs follow inputs", "statement": "Whenever an output signal of an entity is read, the value handed out is the value its function gives on the present values of the inputs, for every history of input changes and readings, whatever the library recomputes beyond what the declared dependencies require.", "quantifier": "all graphs of signals, all signal functions, all histories of input assignments and readings; all output signals of the features, tasks, solver, controllers and modifiers listed in the model", "why_tests_cant": "A test changes the inputs a test author thought of; a forgotten dependency shows only when one particular input changes while all the declared ones stand still.", "anchors": ["src/feature/feature-abstract.cpp FeatureAbstract", "src/feature/feature-posture.cpp FeaturePosture", "src/feature/feature-line-distance.cpp FeatureLineDistance", "src/feature/feature-1d.cpp Feature1D", "src/feature/feature-joint-limits.cpp FeatureJointLimits", "src/math/op-point-modifier.cpp OpPointModifier", "src/control/admittance-control-op-point.cpp AdmittanceControlOpPoint", "src/tools/kalman.cpp Kalman", "src/task/task-conti.cpp TaskConti", "src/task/task-pd.cpp TaskPD"]}
{"id": "C109", "title": "Dependencies of a reference", "statement": "After any history of references given to a feature and taken away, its error depends on its own input and on the input of the present reference, and on no other reference.", "quantifier": "all sequences of setReference calls with no reference, a reference of the same class or of another class", "why_tests_cant": "The dependency list is invisible to a test of values, and a leftover dependency shows only once the former reference is destroyed or changes.", "anchors": ["include/sot/core/feature-abstract.hh DECLARE_REFERENCE_FUNCTIONS", "include/sot/core/feature-abstract.hh FeatureReferenceHelper", "src/feature/feature-generic.cpp addDependenciesFromReference"]}
{"id": "C110", "title": "The free flyer of the device moves with the commanded velocity", "statement": "For a robot with a free flyer (as many control as configuration coefficients) and without bound checks, the base pose written in the configuration follows, command after command, the motion with the commanded constant velocity of the body for the commanded period; in second order mode with the mean of the velocities at both ends; it always stays a rigid pose, and the published free flyer pose is that pose.", "quantifier": "all robot sizes, configurations (including the singular attitudes), command sequences and periods, both integrating modes", "why_tests_cant": "Unbounded number of steps, and every attitude including those where roll, pitch and yaw are not unique.", "anchors": ["src/tools/device.cpp", "include/sot/core/device.hh", "Device::integrateRollPitchYaw", "Device::freeFlyerPose", "Device::increment"]}
{"id": "C111", "title": "Closed loop of posture tasks", "statement": "When the stack is run on a velocity controlled device, tick after tick, and its highest priorities are tasks with posture features on different joints, every controlled joint follows its wanted position with an error multiplied by 1 - gain * dt at each tick, whatever the tasks of lower priority ask and whether the gain is constant or computed from the error of the task by a gain entity; the error shrinks exactly when 0 < gain * dt < 2, and goes below any margin for ever when the gains stay away from both ends of that range; without other tasks the other joints do not move; and the loop never fails", "quantifier": "all numbers of joints, lists of posture tasks with pairwise different dofs, selectDof commands, gains, moving goals, selections, tasks of lower priority (changing at every tick), inversion thresholds below one, periods, initial configurations and numbers of ticks for which the control limit and the position bounds do not act", "why_tests_cant": "the law concerns unboundedly many ticks and every set of joints, gains and lower tasks; it joins four entities, and a test shows only that one robot moved towards one posture for some iterations", "anchors": ["src/feature/feature-posture.cpp:computeError", "src/feature/feature-posture.cpp:selectDof", "src/task/task.cpp:computeTaskExponentialDecrease", "src/sot/sot.cpp:computeControlLaw", "src/tools/device.cpp:integrate"]}
{"id": "C112", "title": "Time stamps", "statement": "The stamp in milliseconds is within a microsecond of the clock, stamps are ordered exactly as the readings of the clock are (in double arithmetic, so that no two readings share a stamp), a synchronised output read several times in a period gives the same value, and the two synchronised outputs of a period agree", "quantifier": "all readings of the clock until 2242, histories of accesses to the four outputs", "why_tests_cant": "rounding collisions depend on the date and cannot be waited for; the agreement depends on the clock moving between two accesses of the same period", "anchors": ["src/tools/time-stamp.cpp:getTimeStamp", "src/tools/time-stamp.cpp:getTimeStampDouble"]}
{"id": "C113", "title": "Timer", "statement": "A timer gives its input unchanged (or the exception of its input) and a duration in milliseconds that is within a microsecond of the time spent between the two readings of the clock, positive exactly when the clock advanced, zero exactly when it did not move, and never negative", "quantifier": "all inputs, readings of the wall clock until 2242 and of the processor clock", "why_tests_cant": "durations depend on the readings of the clock, which a test cannot choose; the sign depends on the clock being set back", "anchors": ["include/sot/core/timer.hh:compute", "src/tools/timer.cpp"]}
{"id": "C114", "title": "Exceptions", "statement": "The code of an exception identifies its class and its kind, the printed text identifies the class, the code and the message, and an exception built with a text and formatted details carries both", "quantifier": "all classes, codes, texts and details", "why_tests_cant": "every text and every pair of exceptions must be distinguished, not a few", "anchors": ["src/exception/exception-abstract.cpp", "src/exception/exception-task.cpp", "src/exception/exception-feature.cpp", "src/exception/exception-tools.cpp"]}
{"id": "C115", "title": "Python position features", "statement": "A FeaturePositionRelative has a zero error exactly when the other frame seen from the base frame is the other reference seen from the base reference, whatever was plugged or set under the four documented names (identity by default); a FeaturePosition has a zero error exactly when position and reference coincide, raises when one is missing, works in the current frame at start; keep makes the error zero; the signals kept as members are found by name.", "quantifier": "all constructor arguments (signals or values), all histories of assignments, frame changes and keeps, all times", "why_tests_cant": "Histories and poses are unbounded; tests build one feature with constants.", "anchors": ["src/dynamic_graph/sot/core/feature_position.py", "src/dynamic_graph/sot/core/feature_position_relative.py", "FeaturePoint6dRelative::computeError", "FeaturePoint6d::servoCurrentPosition"]}
{"id": "C116", "title": "A viewer added to a robot sees every state and does not change what the robot does", "statement": "After a viewer is added to a robot, every increment and set does to the robot what it did before, and the viewer gets every new state once, in order, under one name, followed by the zeros asked for. If the viewer is missing, the robot works as before and no exception is raised. The viewer may be added again, or to a second robot, without harm.", "quantifier": "all sequences of increment and set, all states, all settings of the viewer, connected or not, one or several robots of the class", "why_tests_cant": "The replaced methods compose over the history; a test sees one robot, one viewer and a few calls.", "anchors": ["src/dynamic_graph/sot/core/utils/viewer_helper.py: addRobotViewer, refreshView, incrementView, setView, stateFullSize"]}
{"id": "C117", "title": "A proportional derivative loop follows its reference exactly for the gains that the sampling period allows", "statement": "When the last joints of a device in second order integration are driven by a ControlPD fed with the state and velocity signals of the device, every tick is defined, the other joints do not move, and the errors of position and velocity of the controlled joints go to zero along every reference moving at constant velocity, from every initial state, if and only if each joint has 0 < Kp, dt Kp / 2 < Kd and dt Kd < 2; in particular critically damped gains are allowed exactly below the natural frequency 1 / dt, and no loop without a derivative gain follows its reference from every state.", "quantifier": "every number of joints, gains, sampling period, reference, initial configuration and velocity, and every number of ticks", "why_tests_cant": "convergence is about infinitely many ticks and from every state, and the bound on the gains cannot be found by sampling", "anchors": ["src/control/control-pd.cpp:ControlPD::computeControl", "src/tools/device.cpp:Device::increment", "src/tools/device.cpp:Device::integrate"]}
{"id": "C118", "title": "A relative meta task is satisfied exactly when the two points have the relative pose asked for", "statement": "After goto6dRel(task, position, positionRef) on a relative kinematic meta task, whatever the script did before and however the two points are then moved by opmodif and opmodifBase, the error is zero at a time exactly when the first point, seen from the base point, is where the first pose is seen from the second; gotoNdRel gives the selected part of the same motion and without a selection keeps the one in use; a helper that raises changes nothing; the gain is the last one asked for; each point follows its own modifier only, and the jacobians read are those of the modified points. Wanted as well: keep() keeps the present relative pose, and the attribute ref sets the desired pose.", "quantifier": "all scripts (lists of goto6dRel, gotoNdRel, ref, keep, opmodif, opmodifBase), all poses, motions of the robot, times, gains and selections", "why_tests_cant": "a test runs one script on one robot; here the order of the statements is arbitrary and the robot moves", "anchors": ["src/dynamic_graph/sot/core/meta_tasks_kine_relative.py:MetaTaskKine6dRel", "src/dynamic_graph/sot/core/meta_tasks_kine_relative.py:goto6dRel", "src/dynamic_graph/sot/core/meta_tasks_kine_relative.py:gotoNdRel"]}
{"id": "C119", "title": "A visual point meta task controls the image of its target", "statement": "A visual point meta task can be built for any operational point, creates the point only if the robot does not have it, and after goto3D its error is the image of the target seen from the operational point, as modified, minus the desired image point; without a desired image point there is no error.", "quantifier": "all robots, operational points, targets, desired image points, modifications and poses", "why_tests_cant": "depends on the version of the interpreter, on the build and on the whole script", "anchors": ["src/dynamic_graph/sot/core/meta_task_visual_point.py:MetaTaskVisualPoint", "src/feature/visual-point-projecter.cpp:VisualPointProjecter"]}
{"id": "C120", "title": "The outputs of the trajectory player agree and the player makes one step per tick", "statement": "Whatever outputs of a joint trajectory entity are read (position, com, zmp, waist, seqid), in whatever order and however often, as long as time does not go back: the entity makes exactly one step at each time at which an output is read, with the trajectory received at that time, and all the values handed out at one time are those of one point; reading again, or at an earlier time, hands out the value held and moves nothing; with well formed trajectories every read is defined.", "quantifier": "all first trajectories, all inputs over time, all schedules of reads", "why_tests_cant": "the schedule of the reads is decided by the rest of the graph; a test fixes one", "anchors": ["src/tools/joint-trajectory-entity.cpp:SotJointTrajectoryEntity", "src/tools/joint-trajectory-entity.cpp:getNextPosition", "src/tools/joint-trajectory-entity.cpp:OneStepOfUpdate"]}
{"id": "C121", "title": "A recorded history writes what it recorded", "statement": "For every sequence of recordings, the positions and velocities kept are those of the iterations that are multiples of the period, in order, and each is kept with the zero moment point expressed in the frame of the waist; the files written afterwards, read back line by line and word by word, hold one line for each sample with its time stamp and the announced coefficients in the announced order, and dumping raises exactly when a sample is too short or nothing was recorded.", "quantifier": "every sequence of calls of record, every period, position, velocity, waist and point, every text given to numbers without blank or newline", "why_tests_cant": "the file holds whatever was recorded over an arbitrary run; tests look at one short run", "anchors": ["src/dynamic_graph/sot/core/utils/history.py:History.record", "src/dynamic_graph/sot/core/utils/history.py:History.dumpToOpenHRP"]}
{"id": "C122", "title": "The viewer log holds what was displayed", "statement": "For every sequence of displayed configurations, the log file of every element holds one line for each of its updates, in order, with the time and all the coefficients, the viewer receives the same updates in the same order, the logs of previous runs are removed and no other file is touched.", "quantifier": "every sequence of updates, every names, times and configurations, every content of the disk", "why_tests_cant": "depends on the whole sequence of updates and on what previous runs left", "anchors": ["src/dynamic_graph/sot/core/utils/viewer_loger.py:ViewerLoger"]}
{"id": "C123", "title": "Actions that use the calendar while it runs", "statement": "When the actions of a calendar register further actions for later ticks, every action is called exactly once per registration, at the tick it was registered for and in the order of registration, and running any range of ticks ends; actions registered in the course of a tick for that very tick are called in that tick. Two readings fail: a permanent action that stops itself makes the calendar skip the next permanent action at that tick, and an action that registers itself for the current tick never returns control.", "quantifier": "every calendar history, every behaviour of the actions (a function of the tick and of all calls so far) and every number of ticks", "why_tests_cant": "the outcome depends on which action changes which list at which position of an iteration in progress", "anchors": ["src/dynamic_graph/sot/core/utils/attime.py:Calendar.run", "src/dynamic_graph/sot/core/utils/attime.py:Calendar.registerEvent", "src/dynamic_graph/sot/core/utils/attime.py:Calendar.fastForward", "src/dynamic_graph/sot/core/utils/attime.py:Calendar.stop"]}
{"id": "C124", "title": "References of a feature given by name", "statement": "After any history of creations of tasks and features and of references given to features by name or taken away, getReference answers the name of the reference last given, or none; giving an unknown name raises and keeps the reference. Three readings fail: a feature of another class is accepted and drops the reference, the answer none may be the name of a reference, and both commands are undefined once the reference has been deleted.", "quantifier": "every history of creations, of references given and taken away, for every feature, class and name", "why_tests_cant": "the answer depends on all earlier creations and on the last accepted reference", "anchors": ["src/feature/feature-abstract.cpp:FeatureAbstract::setReferenceByName", "src/feature/feature-abstract.cpp:FeatureAbstract::getReferenceByName", "include/sot/core/feature-abstract.hh:FeatureReferenceHelper", "src/factory/pool.cpp:PoolStorage::getFeature"]}
{"id": "C125", "title": "The stack and the tasks print themselves faithfully", "statement": "After any history of commands, the display of a stack of tasks is a frame and one line per task in the order of priority, so that two stacks that display alike hold the same tasks in the same order (names on one line and distinct); the graph it writes has exactly one edge from each task to the next, one node per task and a cluster with its name, and when no task is there twice, following the edges from a task leads exactly to those of lower priority; a task displays, and draws an edge from, exactly the features added since it was last cleared, in order; a feature draws an edge from its reference exactly when one is set.", "quantifier": "every history of commands on the stack and on the task, every naming of the tasks and features by texts on one line, every state of the references", "why_tests_cant": "The text depends on the whole history of pushes, pops, moves and clearings, and on the names; tests compare a few outputs.", "anchors": ["src/sot/sot.cpp: Sot::display, Sot::writeGraph", "src/task/task.cpp: Task::display, Task::writeGraph", "src/feature/feature-abstract.cpp: FeatureAbstract::writeGraph"]}
{"id": "C126", "title": "The report of the stop watch shows what was measured", "statement": "After any history of commands, the report of a name that was started while the watch was on is two lines: the first holds, separated by tabulations, the name padded to eighty columns and the minimum, then the average, the maximum, the last time, in milliseconds and equal to a thousand times what the getters return, and the number of measures; the second holds the total. The full report is a header and those lines, for exactly the names started while the watch was on, each once, in the order of the names; any other name raises, and a watch that is off reports nothing and raises nothing.", "quantifier": "every history of start, stop, pause, reset, on, off and change of mode, every name without tabulation nor newline, every precision, every way of writing numbers without tabulation nor newline", "why_tests_cant": "Which names are reported and what is shown depend on the whole history of commands on all the names.", "anchors": ["src/utils/stop-watch.cpp: Stopwatch::report, Stopwatch::report_all"]}
{"id": "C127", "title": "The entities that hold a constant hand out what was set last", "statement": "Once a value has been set, or a size asked, on an entity that holds a constant matrix, vector or number, its output read at any time is that value, or zeros of that size, until the next accepted command; a command the entity does not have, or with a value of another kind, changes nothing; the value keeps its kind and the lines of a matrix their size. The numbers of rows and columns shown by the entity are those of its value.", "quantifier": "every kind of constant, history of set and resize commands (accepted or refused), sizes and times of the reads", "why_tests_cant": "the value read depends on the last accepted command of an unbounded history, and the sizes are arbitrary", "anchors": ["src/matrix/matrix-constant.cpp MatrixConstant::setValue", "src/matrix/vector-constant.cpp VectorConstant::setValue", "src/matrix/double-constant.cpp DoubleConstant::setValue", "src/matrix/matrix-constant-command.h Resize", "src/matrix/vector-constant-command.h Resize"]}
{"id": "C128", "title": "The center of mass meta task drives the center of mass to its reference", "statement": "Whatever references, selections, gains and reads came before, reading the task of a center of mass meta task gives as error the selected coordinates of the center of mass minus the reference set last, as wanted motion minus the gain at that error times the error, coordinate by coordinate, and the selected rows of the jacobian; without a reference the read raises; without setGain the gain is a tenth. If the center of mass moves by the wanted motion at each period, every coordinate comes closer to the reference without passing it, geometrically. A reference of another size is refused.", "quantifier": "every history of references, selections, setGain calls and reads on a robot of fixed size, every gain within bounds, period and number of periods", "why_tests_cant": "the behaviour depends on an unbounded history and the convergence holds for every number of periods", "anchors": ["src/dynamic_graph/sot/core/meta_tasks.py MetaTaskCom", "src/dynamic_graph/sot/core/meta_tasks_kine.py MetaTaskKineCom", "src/feature/feature-generic.cpp FeatureGeneric::computeError", "src/task/gain-adaptive.cpp GainAdaptive::computeGain", "src/task/task.cpp Task::computeTaskExponentialDecrease"]}
{"id": "C129", "title": "The quaternion class converts to and from rotations", "statement": "The matrix of a product of quaternions is the product of their matrices, that of the conjugate the transpose; a unit quaternion gives a rotation, the same as its opposite; the quaternion built from the matrix of a unit quaternion is that quaternion or its opposite, and the quaternion built from a rotation vector is a unit quaternion.", "quantifier": "all quaternions, all unit quaternions, all rotation vectors", "why_tests_cant": "identities over the real numbers for all values, and a case split on the rotation that tests visit only in part", "anchors": ["src/math/vector-quaternion.cpp VectorQuaternion::fromMatrix", "src/math/vector-quaternion.cpp VectorQuaternion::fromVector", "src/math/vector-quaternion.cpp VectorQuaternion::toMatrix", "src/math/vector-quaternion.cpp VectorQuaternion::conjugate", "src/math/vector-quaternion.cpp VectorQuaternion::multiply"]}
{"id": "C130", "title": "The control step runs its periodic calls around the control", "statement": "For every history of commands, changes of the two lists of periodic calls and control steps: a step at time t makes the calls of the first list due at t+1 (factor dividing t+1), in the order of their names, then reads the control at t, then publishes the state at t+1, then makes the calls of the second list due at t+1, then publishes the motor control. A call that raises ends the calls of its list for this step and nothing else. Calls never change the state of the device; published times are consecutive; a control that raises leaves the device and its time unchanged. Not every due call is made (a raising call takes their turn from the later names), and a call may be made twice for one time (after a control that raised).", "quantifier": "every history of commands, list changes and steps, any control values, any set of raising calls, any time below the largest int", "why_tests_cant": "The interleaving depends on the whole history of additions and removals, on divisibility of the time and on which calls raise; no finite test list covers them.", "anchors": ["src/tools/device.cpp: Device::increment", "src/tools/periodic-call.cpp: runSignals", "include/sot/core/device.hh: periodicCallBefore, periodicCallAfter"]}
{"id": "C131", "title": "An operator entity hands out its operator applied to its inputs", "statement": "In every graph without loops of unary and binary operator entities, whatever values are given to its inputs and whatever outputs are read, in any order: an output that is read is its operator, with the parameters it was given, applied to what its inputs hold at that moment, all through the graph. A command that changes the parameters of an operator (selec, setIndex, resize...) is taken into account by the first reading after one of the inputs of the entity got a value; a command given after a reading is not seen by later readings until then.", "quantifier": "every graph of operator entities without loops, every operator and parameters, every history of values, commands and readings", "why_tests_cant": "The value handed out depends on which signals were computed when, over the whole history; tests read an operator once, after setting it.", "anchors": ["include/sot/core/unary-op.hh: UnaryOp", "include/sot/core/binary-op.hh: BinaryOp", "src/matrix/operator.hh: addSpecificCommands"]}
{"id": "C132", "title": "Functions decorated with a time run at that time", "statement": "Decorating a function with a time of the calendar registers it, last, for that time, with its documentation (or \"No doc fun\") as text, and changes nothing else; the object left under its name calls the function, however many times it is decorated or registered again; every run ends in calls of plain functions and prints one line per event of its time, in order, with its text. A function decorated to run always can be stopped through the function itself; it cannot be stopped through the object left under its name, which raises.", "quantifier": "every history of decorations and registrations of functions and of decorated objects, every documentation, every time", "why_tests_cant": "Decorated objects may be decorated or registered again without bound; the calls and the texts depend on the whole history.", "anchors": ["src/dynamic_graph/sot/core/utils/attime.py: Calendar.generatorDecorator, Calendar.run, Calendar.stop"]}
{"id": "C133", "title": "Stepping an interruptible loop by hand", "statement": "Whatever the interleaving of the script with the thread of the loop, the calls of the loop function are exactly the iterations counted by the thread plus those asked for by `next` and `n + x` (x of them, none when x is not positive). stop brings the loop to rest within two steps of its thread, with at most one more call; from rest, and until the next go, next and n + x make exactly the calls asked for, never two at the same time, and leave the loop at rest. While the loop plays, or just after stop, next may call the function during a call of the thread, and the counter of iterations never counts the calls of next. restart never starts the loop again: it waits for the thread, and then fails.", "quantifier": "every list of shortcuts, every number after n +, every interleaving with the thread, every prefix of it", "why_tests_cant": "an overlap depends on where the thread is when the script enters the function; a test sees one schedule", "anchors": ["src/dynamic_graph/sot/core/utils/thread_interruptible_loop.py:50-57 (run), 69-73 (restart), 98-120 (loopShortcuts)", ""]}
{"id": "C134", "title": "What features, sequencers and periodic calls print", "statement": "The text of a feature of poses names exactly the selected components among X, Y, Z, RX, RY, RZ, in order, with commas between; there are as many as the dimension of the feature, and two features of the same name print the same text exactly when they select the same components. After any history of calls, the text of a sequencer has one line for each time at which an event is registered, in increasing order of time, with the events of this time in the order of registration; printing is undefined exactly when a null event is registered. The text of a periodic call lists the names registered and not removed since, each once, in increasing order, under a time that is 0 whatever was triggered.", "quantifier": "every selection, every history of registrations, removals, clears and triggers, every name of entity, task and signal", "why_tests_cant": "the text depends on the whole history of the registrations; a test prints a few of them", "anchors": ["src/feature/feature-point6d.cpp:496-514 (display)", "src/feature/feature-point6d-relative.cpp:256-274 (display)", "include/sot/core/feature-pose.hxx:321-339 (display)", "src/tools/sequencer.cpp:246-262 (display)", "src/tools/periodic-call.cpp:92-100 (display)", "src/tools/periodic-call-entity.cpp:57-60"]}
{"id": "C135", "title": "Traces hold exactly the enabled messages", "statement": "After openFile succeeds on a name, the file of that name holds exactly the messages traced until the next openFile or closeFile whose level is within the level of their flow, in order, each preceded by the text prepared for it on the same flow and cut at 511 characters; a message that is filtered out takes its prepared text with it; nothing is written while the traces are closed; files that are not opened are not touched; and openFile lets traces be written again after any earlier failure.", "quantifier": "every history of openFile, closeFile, prepared texts and traces on the two flows, every level, message and name, every outcome of the writes", "why_tests_cant": "Tests trace a few messages to one file; the claim ranges over all interleavings of two flows, reopenings and failing writes.", "anchors": ["include/sot/core/debug.hh:DebugTrace", "src/debug/debug.cpp:openFile", "src/debug/debug.cpp:closeFile"]}
{"id": "C136", "title": "Setting flags by a command", "statement": "The command that sets a flag signal from a text gives the named signal exactly the bits the text spells, keeps the bit it held for the indices beyond, and changes no other signal; it refuses, with an exception and no change at all, an unknown signal, a signal of another type and a text it cannot read; after any history each flag signal spells the last text accepted for it; and the forms announced by the help of the command are accepted.", "quantifier": "every pool of signals, every command line, signal name and text, every history of commands", "why_tests_cant": "Tests try a few texts on one signal; the claim covers every text, including partly valid ones, and every history.", "anchors": ["src/factory/additional-functions.cpp:AdditionalFunctions::cmdFlagSet", "src/sot/flags.cpp:operator>>"]}
{"id": "C137", "title": "Commands of the solver act on task names", "statement": "In every history of task creations and solver commands, push, remove, up and down are accepted exactly when the name given denotes an existing task (and, for push, the size was set); an accepted command edits the list printed by the command list as documented, by name, and a refused one leaves it; list prints the names in priority order.", "quantifier": "every history of creations, deletions and commands, every task name", "why_tests_cant": "The claim quantifies over all interleavings of creations, deletions and commands given by name.", "anchors": ["src/sot/sot-command.h:Push", "src/sot/sot-command.h:Remove", "src/sot/sot-command.h:Up", "src/sot/sot-command.h:Down", "src/sot/sot-command.h:List", "src/factory/pool.cpp:PoolStorage::getTask"]}
{"id": "C138", "title": "Signals of an event are the ones it lists", "statement": "After any history of the commands of an event and of its evaluations, the command list prints the names of the signals added, in order and as often as they were added; a signal is added exactly when the name given is known, and a refused addition changes nothing; when the event fires, exactly the listed signals are recomputed, in that order; the text determines the names when none holds an apostrophe.", "quantifier": "every history of commands and evaluations, every pool of signals and names", "why_tests_cant": "Tests add one signal and fire once; the claim covers all interleavings, repeated and refused additions.", "anchors": ["include/sot/core/event.hh:Event::addSignal", "include/sot/core/event.hh:Event::getSignalsByName", "src/tools/event.cpp:Event::check"]}
{"id": "C139", "title": "Text of the force sensors", "statement": "After any history of the setters of the force sensors, printing them is defined and lists the limits last given for each id, by increasing id, the names in order with the id last given to each, and the ids last given to the four extremities, whether by their setters or by naming them; the text tells which limits belong to which id.", "quantifier": "every history of setters, names, ids and limits, every way of printing numbers", "why_tests_cant": "The text depends on the whole history of setters, including extremities never set.", "anchors": ["src/tools/robot-utils.cpp:ForceUtil::display", "src/tools/robot-utils.cpp:ForceLimits::display", "src/tools/robot-utils.cpp:ForceUtil::set_name_to_force_id"]}
{"id": "C140", "title": "A printed trajectory shows its joints, its points and its time", "statement": "Displaying a trajectory writes a heading, one line per joint with its index, the number of points, and for each point in order its positions, velocities, accelerations and efforts, one value per line, so the text tells two different trajectories apart. Filling a point through transfer sets the vector named by the index, and no other. Two time stamps compare equal exactly when their seconds and nanoseconds do, and a printed time stamp is its time in seconds.", "quantifier": "every trajectory, every sequence of fills, and every pair of time stamps", "why_tests_cant": "The text has no bound on joints, points or values, and a wrong scale in the printed stamp shows only for stamps that are not whole seconds.", "anchors": ["include/sot/core/trajectory.hh:timestamp::operator==, operator<<, JointTrajectoryPoint::display, JointTrajectoryPoint::transfer", "src/tools/trajectory.cpp:Trajectory::display"]}
{"id": "C141", "title": "A printed robot shows what was last set", "statement": "Printing the robot of a parameter server shows the values last set by its commands: the force limits and the names and ids of the force sensors, the sole of the right foot and the position of its force sensor, the frames of the feet and hands, the number of joints and their map, the names and ids of the joints, their limits, and the parameters.", "quantifier": "every sequence of commands of a parameter server followed by a print", "why_tests_cant": "The tables grow without bound and a name can be given again, so what a table must show depends on the whole history; printing before everything is set is undefined, which a test cannot observe.", "anchors": ["src/tools/robot-utils.cpp:RobotUtil::display, FootUtil::display, HandUtil::display, ForceUtil::display", "src/tools/parameter-server.cpp:displayRobotUtil"]}
{"id": "C142", "title": "A printed gain shows its coefficients and the function it computes", "statement": "Printing an adaptive or hyperbolic gain shows the gain last computed, when there is one, and all its coefficients, so gains with different printed coefficients print differently; the function written in the text of a hyperbolic gain is the one it computes.", "quantifier": "every gain, every name, every error", "why_tests_cant": "The text must tell apart all coefficients, and a formula that differs from the computed one must be compared at every error.", "anchors": ["src/task/gain-adaptive.cpp:GainAdaptive::display", "src/task/gain-hyperbolic.cpp:GainHyperbolic::display, GainHyperbolic::computeGain"]}
