# Formal model of sot-core: design

The model is written in Rocq (Coq 8.16.1) under `rocq/theories/`, logical name
`Verif`.  The C++ (and some Python) of `/repo` is modelled function by function
as total Gallina functions; every definition cites the file and lines it models
and says where it simplifies.

## 1. Conventions

* **Outcomes.** A C++ call ends in `Ok v`, `Throw e` (a C++ exception, `e` tells
  which) or `UB` (undefined behaviour: out of bounds access, null dereference,
  division by zero of integers, Eigen size mismatch with assertions compiled
  out).  UB is never assumed away: the theorems prove its absence under a stated
  condition or exhibit it.  (`Base.v`.)
* **State machines.** Objects with commands are a record, one function per
  method, and an inductive type of commands; histories are `fold_left` (or
  `ofold` when a command can fail).  Exceptions leave the partially updated state
  visible where the C++ does.
* **Threads.** Mailbox and interruptible loop: one step is one atomic read,
  write or mutex operation, and theorems quantify over every schedule.
  Memory is sequentially consistent.
* **Signals.** dynamic-graph (the signal graph) is a dependency, not part of this
  repository.  A signal callback is modelled as the function it is: it receives
  the values of its inputs and *the old content of the output buffer*, and
  returns the new content.  Theorems quantify over every old content, because
  dynamic-graph passes a recycled buffer.
* **Numbers.**
  * control flow on `double` where NaN or infinities matter (device bounds, range
    checks, gripper factor): IEEE binary64 as the standard library's
    `SpecFloat.spec_float` (computable, axiom free; facts in `Float_Facts.v`);
  * real arithmetic (gains, filters, integration, geometry, stop watch): the
    standard library's `R`, i.e. rounding is not modelled;
  * linear algebra of any dimension (solver, Kalman, pseudo-inverse): mathcomp
    matrices over an arbitrary `realFieldType`;
  * structural code (selection, stacking, printing, queues): polymorphic lists,
    so the results hold for doubles with their rounding;
  * `int`/`unsigned` counters: `Z` with explicit `mod 2^32` where wrap matters.
* **Eigen.** Vectors are lists (or mathcomp column vectors); element access is
  checked and yields `UB` out of range.  JacobiSVD is an oracle: theorems about
  the solver hold for every (U,S,V) that is an exact singular value
  decomposition, this hypothesis being visible in each statement.
* **Derivatives.** Rates of features are stated with `derivable_pt_lim` along
  arbitrary motions: a jacobian is related to a motion by the hypothesis that it
  maps the joint velocity to the velocity of the frame.
* **Partial results.** A theorem that proves only part of its property is named
  `..._partial`; its comment says what is missing.  When a property is false of
  the code, a theorem `..._refuted` gives a concrete witness.

## 2. Files

For each part `X` of the code: `X_Model.v` (model only), `X_Proofs.v` (lemmas),
`X_Props.v` (the theorems listed in MANIFEST.json, each followed by
`Print Assumptions`, and `Example`s showing that the hypotheses are met by a
concrete non-trivial case).  Small specifications used by statements live in
`X_Props.v` or, when shared, `X_Spec.v`, and do not use the model's helpers.

| Files | Code modelled | Properties |
|---|---|---|
| `Flags_*` | flags.cpp, flags.hh | C01-C04 |
| `Stack_*` | sot.cpp stack commands, dependency list, sot-command.h List | C05-C08, C15 |
| `Solver_*` | sot.cpp computeControlLaw, memory-task-sot.cpp | C09-C14, C70-C72 |
| `Task_*`, `Bound_*` | task.cpp, task-pd.cpp, task-unilateral.cpp, task-conti.cpp, multi-bound.cpp | C16-C22 |
| `Gain_*` | gain-adaptive.cpp, gain-hyperbolic.cpp | C23-C25 |
| `Feature_*` | feature-abstract, generic, posture, joint-limits, visual-point, 1d | C26-C30, C73 |
| `Device_*` | device.cpp (`Device_Float`: in IEEE arithmetic) | C31-C34, C74, C75 |
| `Sched_*` | sequencer.cpp, periodic-call.cpp, event.cpp, latch.hh | C35, C36, C38, C39 |
| `Mailbox_*` | mailbox.hh, mailbox.hxx | C40 |
| `Pool_*` | pool.cpp, writeGraph naming | C41, C76 |
| `Filter_*` | fir-filter.hh, causal-filter.cpp, filter-differentiator.cpp, derivator.hh, integrator-euler.hh, exp-moving-avg.cpp | C42-C47 |
| `Variadic_*`, `Operator_*` | variadic-op.hh, switch.hh, operator.hh | C37, C48, C49, C77, C78 |
| `Geom_*`, `OpPoint_*` | matrix-geometry.hh, operator.hh conversions, op-point-modifier.cpp, vector-to-rotation.cpp | C50-C53 |
| `Kalman_*`, `Pinv_*` | kalman.cpp, matrix-svd.cpp | C54, C55 |
| `Madgwick_*` | madgwickahrs.cpp | C56 |
| `Tools_*`, `Tools2_*`, `Tools_Float_*` | smooth-reach, joint-limitator, gripper-control, com-freezer, gradient-ascent, motion-period, neck-limitation, binary-int-to-uint, control-pd, control-gr | C57-C59, C61, C79-C82 |
| `Admit_*` | admittance-control-op-point.cpp, clamp-workspace.cpp | C60, C83 |
| `Robot_*`, `RobotBase_*`, `RobotWorld_*` | robot-utils.cpp, parameter-server.cpp | C62-C64, C84, C85 |
| `Mimic_*` | robot-utils.cpp ExtractJointMimics | C86 |
| `Traj_*` | joint-trajectory-entity.cpp, trajectory.cpp (data and headers) | C65 |
| `Reader_*`, `Watch_*`, `Calendar_*`, `Loop_*` | reader.cpp, stop-watch.cpp, attime.py, thread_interruptible_loop.py | C66-C69 |
| `Point6d_*`, `Rodr_Facts`, `Rel_Facts` | feature-point6d.cpp; derivative of the rotation vector | C87-C90 |
| `Pose_*`, `Log6_Facts` | feature-pose.hxx; logarithm of a rigid motion and its derivative | C91-C94 |
| `Rel6_*` | feature-point6d-relative.cpp | C95, C96 |
| `Line_*` | feature-vector3.cpp, feature-line-distance.cpp, visual-point-projecter.cpp | C97-C99 |
| `TrajText_*` | trajectory.cpp (regular expressions, reading of a text) | C100 |
| `MatUtil_*` | matrix_util.py | C101 |
| `Loader_*` | sot-loader.cpp, sot-loader.hh | C102 |
| `Stream_*` | contiifstream.cpp, utils/history.py | C103, C104 |
| `Meta_*` | meta_task_posture.py, meta_tasks.py, meta_task_6d.py, meta_tasks_kine_relative.py | C105-C107 |
| `Deps_*` | dependencies declared and signals read by the features, tasks, solver, controllers and modifiers (feature-*.cpp, task*.cpp, sot.cpp, op-point-modifier.cpp, control-*.cpp, kalman.cpp, ...), feature-abstract.hh | C108, C109 |
| `FreeFly_*` | tools/device.cpp 40-65 (integrateRollPitchYaw, freeFlyerPose) with the device of `Device_*` | C110 |
| `Closed_*` | feature/feature-posture.cpp, task/task.cpp, sot/sot.cpp 458-643 and tools/device.cpp 414-553, connected into one tick | C111 |
| `Clock_*` | tools/time-stamp.cpp, tools/timer.cpp, timer.hh | C112, C113 |
| `Exc_*` | exception/*.cpp, exception-*.hh | C114 |
| `EulerV_*` | integrator-abstract.hh, integrator-euler.hh, matrix/integrator-euler.t.cpp: Vector with double or Matrix coefficients | C46 |
| `PyFeat_*` | dynamic_graph/sot/core/feature_position.py, feature_position_relative.py over Point6d_Model and Rel6_Model | C115, C87 |
| `Viewer_*` | dynamic_graph/sot/core/utils/viewer_helper.py | C116 |
| `PdLoop_*` | src/control/control-pd.cpp and src/tools/device.cpp connected | C117 |
| `MetaRel_*` | src/dynamic_graph/sot/core/meta_tasks_kine_relative.py, meta_task_visual_point.py | C118, C119 |
| `TrajSig_*` | src/tools/joint-trajectory-entity.cpp (the output signals) | C120 |
| `HistDump_*` | src/dynamic_graph/sot/core/utils/history.py (zero moment point, dumpToOpenHRP) | C121 |
| `VLog_*` | src/dynamic_graph/sot/core/utils/viewer_loger.py | C122 |
| `CalLive_*` | src/dynamic_graph/sot/core/utils/attime.py (actions that use the calendar) | C123 |
| `RefName_*` | src/feature/feature-abstract.cpp, include/sot/core/feature-abstract.hh (references by name), src/factory/pool.cpp (text of the graph) | C124, C76 |
| `StackText_*` | src/sot/sot.cpp 648-698 (display, writeGraph), src/task/task.cpp 319-338, src/feature/feature-abstract.cpp 69-80 | C125 |
| `WatchText_*` | src/utils/stop-watch.cpp 185-194, 224-250 (report, report_all) | C126 |
| `FiltDiff_*` | src/filters/filter-differentiator.cpp, src/filters/causal-filter.cpp (vectors, three outputs over one inner signal) | C43, C44 |
| `DerivLoop_*` | derivator after the integrator and on the state of the device | C45 |
| `OpPointE_*` | src/math/op-point-modifier.cpp (commands and signals of the entity) | C52 |
| `SmoothDef_*` | src/tools/smooth-reach.cpp (a new entity) | C57 |
| `DerivV_*` | include/sot/core/derivator.hh (vectors and quaternions, read through the signal) | C45 |
| `Const_*` | src/matrix/matrix-constant.cpp, vector-constant.cpp, double-constant.cpp and their commands | C127 |
| `MetaCom_*` | src/dynamic_graph/sot/core/meta_tasks.py, meta_tasks_kine.py (MetaTaskCom, MetaTaskKineCom) | C128 |
| `VQuat_*` | src/math/vector-quaternion.cpp (in no build list) | C129 |
| `DevTick_*` | src/tools/device.cpp (Device::increment with its periodic calls) | C130 |
| `OpGraph_*` | include/sot/core/unary-op.hh, binary-op.hh, commands of src/matrix/operator.hh | C131 |
| `CalDeco_*` | src/dynamic_graph/sot/core/utils/attime.py (decorator, lines printed by a run) | C132 |
| `LoopNext_*` | src/dynamic_graph/sot/core/utils/thread_interruptible_loop.py (shortcuts go, stop, next and n + x) | C133 |
| `ShowText_*` | src/feature/feature-point6d.cpp, feature-point6d-relative.cpp, include/sot/core/feature-pose.hxx, src/tools/sequencer.cpp, periodic-call.cpp (display) | C134 |
| `Debug_*` | include/sot/core/debug.hh, src/debug/debug.cpp | C135 |
| `FlagCmd_*` | src/factory/additional-functions.cpp | C136 |
| `StackCmd_*` | src/sot/sot-command.h with src/factory/pool.cpp | C137 |
| `EventText_*` | include/sot/core/event.hh (commands) | C138 |
| `ForceText_*` | src/tools/robot-utils.cpp (display of force sensors) | C139 |
| `TrajShow_*` | include/sot/core/trajectory.hh (timestamp, point), src/tools/trajectory.cpp (display) | C140 |
| `RobotText_*` | src/tools/robot-utils.cpp (display of the robot), src/tools/parameter-server.cpp (displayRobotUtil) | C141 |
| `GainText_*` | src/task/gain-adaptive.cpp, src/task/gain-hyperbolic.cpp (display) | C142 |
`Base.v` (outcomes, vectors, loops), `SMap.v` (std::map), `Float_Facts.v`
(binary64), `Mx_Abel.v` (a tactic for sums of matrices) are shared.

## 3. How each property is proved

| Property | Modelled | Proof |
|---|---|---|
| C01-C04 | list of bool and default bit; text as `string` | pointwise induction on the lists; parser/printer induction |
| C05-C08, C15 | commands as list edits, dependency multiset | list lemmas; invariant over command lists; injectivity of the listing |
| C09-C14, C70-C72 | loop over the stack on mathcomp matrices, SVD oracle | invariant of the null space basis, orthogonality, induction over the stack |
| C16-C20 | compute functions with the old buffer as argument | loop invariants; refutation when the buffer grows |
| C21-C22 | bound state machine and text | history induction, printer/parser |
| C23-C25 | real functions | analysis in the standard reals |
| C26-C30, C73 | selection loops on lists, formulas over `R` | induction, history invariants, derivatives |
| C31-C34, C74, C75 | device step; `R` for integration, binary64 for clamping | induction over control sequences, invariants |
| C35-C39 | schedulers and triggers as state machines | history induction |
| C40, C69 | threads as program counters | invariants over all interleavings |
| C41, C76 | name maps, text | history induction |
| C42-C47 | circular buffers, recurrences | refinement to histories |
| C48, C49, C77, C78 | operators on lists | folds, history induction |
| C50-C53 | 3-vectors, 3x3 matrices, quaternions over `R` | algebra, trigonometry |
| C54, C55 | mathcomp matrices | positive semidefinite order, Penrose equations |
| C56 | quaternion update over `R` | algebra; definedness by bounding the norms |
| C57-C61, C79-C83 | entities as functions of inputs and memory | case analysis, induction over histories |
| C62-C64, C84-C86 | maps, permutations, trees | history induction, refinement to a log of commands |
| C65-C68 | queues, cursors, accumulators | refinement to a small player/replay/log specification |
| C87-C99 | relative poses, rotation vectors, logarithms over `R` | algebra; derivatives along arbitrary motions; descent |
| C100 | regular expressions as a backtracking matcher, texts as `string` | induction over the text; one outcome for every text |
| C101 | small matrices over `R` | algebra, trigonometry, agreement with the C++ conversions |
| C102-C104 | loader, followed file and recorder as state machines | history induction, invariants |
| C105-C107 | calls on a task as functions of arguments and state | induction over the limbs, history invariants, derivatives |
| C108, C109 | graph of cached signals with stamps; tables of declared and read signals; reference as a state machine | invariant over all histories, induction over the order of the signals; exactness by a schedule that recomputes only what it must; the tables are decided by computation and the decision procedure is proved correct |
| C110 | exponential of SE(3) by its closed form, quaternion and euler angles of Eigen, device of C31 with the free flyer pose | the closed form has a constant body velocity (derivatives) and the motion with a constant body velocity is unique (mean value theorem); induction over the commands |
| C111 | a tick of the control loop made of the models of the feature, the task, the stack and the device; runs of any length, lower priority tasks arbitrary at each tick | solver on tasks with orthonormal, mutually orthogonal rows; induction over ticks; existence of the decompositions by products of reflections; geometric sequences in an archimedean field |
| C112, C113 | clock readings as seconds and microseconds, double arithmetic as rounding of reals (Flocq), histories of accesses to the outputs | error bounds of roundings; invariants on what the synchronised outputs keep; counterexamples |
| C114 | classes, codes, constructors and printing of the exceptions | case analysis, injectivity of decimal printing; counterexamples |
| C115 | the wrappers as constructions of the entities of the models of the features, with the signals they plug | rewriting with the theorems on the features; counterexamples |
| C116 | the methods of the class as values that addRobotViewer replaces, several robots sharing the class, a limit on nested calls | invariant of a connected robot, induction over the calls; induction over the limit for the counterexample |
| C117 | one tick: ControlPD on the last joints of the signals of the device, then increment | each joint is a linear recurrence of order two; quadratic Lyapunov function for sufficiency; area of two motions and monotone motions for necessity |
| C118 | the state of the task (points with modifiers, two reference poses, selection, gain) and a script as a list of statements | each statement keeps what it does not set; the zero of the relative feature (C95) and group laws of poses; counterexamples |
| C119 | constructor, helper and setters over the projecter and the feature; the length of a filter object depends on the interpreter | unfolding over the script, then the theorem on the projecter (C99) |
| C120 | five outputs over one step signal, each with the time and the value of its last computation | invariant: what an output holds for the time of the last step is its field of the state; induction over the schedule |
| C121 | list of samples, files as texts | induction over the recordings; texts are cut at newlines and blanks and compared with the table expected |
| C122 | a disk as a map from paths to texts, the names opened, the updates forwarded | invariant over the updates: each log is made of whole lines and equals the table expected |
| C123 | a Python loop reads the list as it is at each position; an action is any function of the tick and the calls so far | induction over a bounded number of calls, invariant: the calendar represents the history of commands; bound shown sufficient |
| C124 | the pool with the objects that exist, their names and references | invariant between the pool and what a user remembers of the history; induction over the history |
| C125 | texts as strings, cut at newlines; names as a function of the identity of the objects | induction over the stack; the edges are the pairs of neighbours, their transitive closure is the order of the stack |
| C126 | the records of the stop watch written through any printing of numbers | induction over the history for the names, over the records for the lines; counterexample |
| C43, C44 (entity) | buffers as lists of columns, the outputs and the inner signal with the time of their last computation | each row of the buffers is a scalar filter; invariant over the schedule of reads |

## 4. Trusted base

* Coq's kernel (8.16.1).  mathcomp, and the standard library, are used as
  libraries of proved facts.  No axiom is added, no kernel check is switched off.
* The axioms of the standard library's real numbers and of functional
  extensionality, as listed per theorem in section 6: 
  `ClassicalDedekindReals.sig_forall_dec`, `ClassicalDedekindReals.sig_not_dec`,
  `FunctionalExtensionality.functional_extensionality_dep`,
  `Classical_Prop.classic`.  No other axiom appears in any `Print Assumptions`.
  (`coqchk` also lists constants of sealed modules of the standard library and
  mathcomp, e.g. `RbaseSymbolsImpl.Rplus_def`, `fintype.Finite.EnumDef.enum`;
  these are defined constants hidden by a signature, not assumptions.)
* Faithfulness of the hand translation (comments give file and line).
* External code, represented as follows:
  * dynamic-graph: a signal calls its function once per evaluation that needs
    it; the cache itself is modelled only where the property is about it
    (Kalman outputs, object signal of the mailbox, periodic calls); for C108 a
    signal that is read is computed again at least when it never was or when a
    declared dependency was assigned or computed since, and the refutations use
    a history in which nothing more is computed;
  * Eigen: dense algebra is exact; JacobiSVD is any exact decomposition; angle
    axis, quaternion and Euler angle conversions follow Eigen 3.3's documented
    algorithm; `Transform::rotation()` of a rigid transform is its linear part;
  * pinocchio: `log3`, `Jlog3`, `log6`, `Jlog6` by their closed formulas, which
    are proved to be the logarithm and its derivative (`Rodr_Facts`,
    `Log6_Facts`); the integration of the free flyer is a parameter;
  * boost (property trees, regular expressions, circular buffers), C++ streams:
    as documented; conversions of text to numbers are parameters.

Not modelled: the dynamic linker and the command line of sot-loader.cpp,
logging and debug streams, signal casts of user types, the documentation texts
of the commands and signals, the printing of entities other than the stack, the
tasks, the pool and the stop watch, bindings to Python,
FeaturePoint6dRelative::computeErrorDot (no signal calls it), and the force
sensors inside the device step.

## 5. Findings

Where the code does not do what the property or its documentation says.  Each
item names the theorem with the witness.

* **C04** (Printing Flags and reading them back restores the stored bits):
  Findings: the default bit is not printed; blanks are a bit for the
  constructor and skipped by the reader. [flags_print_loses_default_refuted,
  flags_blank_ambiguous_refuted]
* **C07** (The control output depends on exactly the tasks in the stack):
  Finding: with the same task pushed twice, removing one occurrence drops the
  dependencies of the remaining one. [stack_dependencies_duplicate_refuted]
* **C11** (A task whose command is too large is skipped without affecting the
  control): The control is unchanged by a rejected task. The remaining tasks
  are solved as if it were absent only once a null space basis exists; when
  the rejected task is the first one (no projector input) the loop stops and
  the lower tasks are dropped: refuted with a witness.
  [solver_rejected_first_refuted]
* **C16** (A task's error is the concatenation of its features' errors):
  Finding: in a buffer that is too small (first evaluation) the errors written
  before the last reallocation are lost; exact as soon as the buffer was used
  once with the same dimension [task_error_lost_refuted]
* **C17** (A task's jacobian stacks its features' jacobians): Finding: a
  buffer with rows and no column leads to an out-of-range write (swapped
  resize arguments); the number of columns can never change
  [task_jacobian_swapped_resize_refuted]
* **C22** (Printed bounds read back): Finding: the closing parenthesis of a
  printed empty vector is not consumed; printing and reading of numbers is a
  parameter with a stated contract, met by decimal naturals
  [bounds_empty_not_consumed_refuted]
* **C25** (The hyperbolic gain is monotone and bounded by its end values):
  Findings: the documented value at zero error is not reached, and the slope
  at the inflexion point is a quarter of the requested one.
  [hyperbolic_value_at_zero_refuted]
* **C26** (A generic feature exposes exactly the selected components): For
  inputs whose size stays the one of the first access; finding: a later growth
  of the error input writes outside the result.
  [generic_resize_undefined_refuted]
* **C28** (Posture feature: error, derivative, dimension and jacobian stay
  consistent): For a robot whose size does not change; finding: a refused
  command after a change of size leaves the old jacobian.
  [posture_resize_inconsistent_refuted]
* **C29** (Joint limit feature: error in [-1,1] exactly inside the limits and
  jacobian is its derivative): Finding: the jacobian entry is half the
  derivative of the error, so the last part of the property is false of the
  code. [joint_limits_jacobian_not_derivative_refuted]
* **C32** (The device never leaves the position limits when sanity checks are
  on): In IEEE arithmetic, for the two integrating modes and a non null
  period. False of the direct (no integration) mode, which does not check
  positions, and for a null period with an infinite control: refuted theorems.
  [device_direct_mode_unbounded_refuted, device_null_period_nan_refuted]
* **C33** (The device rejects ill sized configuration commands without
  changing the configuration): The reachable configuration part holds as long
  as the size of the robot is not changed; resizing does not clear the bounds
  (refuted theorem). [device_resize_keeps_bounds_refuted, set_root_refuted]
* **C35** (The sequencer runs each registered event at its instant, in
  registration order): Proved once the sequencer plays; but no command can set
  its play mode (sequencer_inert_refuted), and clearing deletes a shared event
  twice. [sequencer_inert_refuted, sequencer_clear_shared_event_refuted,
  sequencer_null_refuted]
* **C36** (Periodic calls run each signal once every factor ticks): The window
  theorem is for non negative times; a negative time breaks the count (refuted
  witness) and a null factor divides by zero.
  [periodic_negative_times_refuted]
* **C37** (Switch selects or refuses, never reads outside): For input names
  that are not of the form sin<i>; such a name makes a later setSignalNumber
  fail half way and leaves a null input (refuted witness).
  [variadic_number_conflict_refuted]
* **C39** (Event triggers on rising edges and repeats with the requested
  period while active): Two surprising behaviours are stated as refutations:
  no firing when the condition is true from the start, and the repetition goes
  on once the condition is false. [event_initial_true_refuted,
  event_fires_while_false_refuted]
* **C40** (Mailbox readers see the last posted value, never a mixture, and
  never block the poster forever): Findings: the time stamp read before any
  post is indeterminate; the object signal can miss a post for ever when it is
  read while the poster holds the mutex. [mailbox_initial_timestamp_refuted,
  mailbox_signal_misses_post_refuted]
* **C41** (The pool maps each name to the first and only entity registered
  under it): Finding: a deleted task stays registered, so the pool hands out a
  dangling reference. [pool_dangling_refuted]
* **C42** (The FIR filter is a convolution with the latest samples): Every
  history of setSize/setElement/evaluations; convolution as documented for
  signals whose buffer is reset (the Vector instances). The generic instance
  (double) accumulates on the stale output buffer: fir_scalar_stale_refuted.
  [fir_scalar_stale_refuted, fir_size_zero_refuted]
* **C43** (The causal filter computes its rational difference equation): Real
  arithmetic. One coordinate for the filter (causal_*), every coordinate and
  every schedule of reads of the three outputs for the entity
  (differentiator_*). Holds for numerators of size at least 1 and denominators
  of size at least 2; outside, causal_fir_refuted. Before init every use is
  undefined. [causal_switch_oldest_refuted, causal_fir_refuted,
  differentiator_before_init_refuted, differentiator_size_refuted]
* **C44** (The causal filter derivatives are finite differences of its
  output): dx for every filter; ddx for denominators of size at least 3. For
  size 2 the claim is false: causal_ddx_order_two_refuted. Each coordinate of
  the signals of the entity: differentiator_equation.
  [causal_ddx_order_two_refuted]
* **C45** (The derivator telescopes): Every history of samples and (non-zero)
  period changes, for numbers and, read through the signal at times that do
  not decrease, for vectors. Two limits are shown: a read that skips ticks
  divides a change over several ticks by one period, and a change of size is
  undefined. [derivator_skips_refuted, derivator_size_refuted]
* **C46** (The Euler integrator realises its transfer function): Real
  arithmetic. Scalar, vector and matrix coefficients.
  [euler_uninitialized_refuted, euler_initial_velocity_refuted,
  euler_constant_input_spike_refuted, euler_leading_coefficient_refuted,
  euler_rectangular_refuted]
* **C47** (The exponential moving average stays within the range of its inputs
  and forgets geometrically): Hull for every history of smoothing factors in
  [0,1]. [ema_bad_alpha_refuted, ema_first_output_refuted]
* **C48** (Vector selection, stacking and mixing move components without
  altering them): For ranges inside the vectors; nothing checks them otherwise
  (refutation). [selecter_unchecked_refuted]
* **C49** (Variadic sums, products and boolean operators are the folds of
  their inputs): Sums hold for histories of setSignalNumber/setCoeffs; after
  addSignal the coefficients are read out of bounds, and sums and boolean
  operators without input keep their previous value (refutations).
  [adder_empty_refuted, adder_added_input_refuted, bool_empty_refuted]
* **C50** (Geometry conversions are mutually inverse): Every pose
  representation converts back to the same pose, for all rigid
  transformations. False as stated for skew matrices: the vector comes back
  negated. Eigen's own algorithms are modelled from its documentation.
  [skew_to_vector_refuted, rpy_angles_refuted]
* **C52** (Operational point modification transports position and jacobian
  consistently): Both versions also proved to be the derivative of the output
  position. The entity with its commands and the times of its reads: after any
  history the outputs follow the transformation set last, at a time not read
  yet; at a time already read the old value is handed out, and before any
  transformation is set the outputs are undefined. Modifiers in a row are one
  with the product. [op_point_stale_refuted]
* **C53** (Rotation built from a sequence of axis rotations is a rotation):
  The entity as shipped has no axes and no command to add any, so its output
  is the identity (axis_sequence_default_refuted).
  [axis_sequence_default_refuted]
* **C54** (The Kalman filter keeps a symmetric positive semidefinite
  covariance): Real field arithmetic; innovation covariance invertible (a
  singular one is a distinct outcome). [variance_dependencies_refuted]
* **C55** (Pseudo inverse and damped inverse satisfy their defining
  equations): Real field arithmetic over any exact singular value
  decomposition (Eigen's JacobiSVD is external).
  [pinv_negative_threshold_refuted, damped_zero_refuted]
* **C56** (The IMU orientation filter outputs unit quaternions): Real
  arithmetic; the inverse square root of zero is a distinct outcome, shown
  unreachable for time steps below one second from unit quaternions.
  [null_quaternion_refuted, beta_nan_refuted]
* **C57** (Smooth reach ends exactly at the goal and stays on the segment):
  Between start and goal for smoothing modes 0, 1, 2 with a positive parameter
  and duration; other modes, parameters and durations are not rejected and
  leave the segment (refuted). [smooth_reach_unchecked_refuted,
  smooth_reach_unset_refuted]
* **C58** (Joint limitator never lets a joint command step out of its limits):
  Holds for the hard-coded period of 5 ms; with another period the limits can
  be crossed (refuted). [joint_limitator_period_refuted]
* **C59** (Gripper factor stays in (0,1] and stops advancing under excessive
  torque): Factor law for any number of fingers; the reference is defined for
  one finger only (refuted for more). In doubles the factor can underflow to
  zero and then never recovers (refuted). [gripper_many_fingers_refuted,
  gripper_never_recovers_refuted]
* **C60** (Admittance output velocity is bounded by the saturation): The world
  velocity is bounded for non-negative saturations; the output itself,
  expressed in the frame of the operational point, is not (refuted).
  [admittance_negative_saturation_refuted, admittance_output_bound_refuted,
  admittance_sensor_pose_refuted]
* **C61** (CoM freezer freezes while the pattern generator is stopped): Frozen
  value and modes proved; the settling delay of 200 ticks is refuted.
  [com_freezer_delay_refuted]
* **C62** (Joint name and id maps are mutually consistent): Joint names and
  force names. Finding: an id that is no longer used keeps its old name
  (stale_name_refuted). [stale_name_refuted]
* **C63** (URDF and SoT joint orders are inverse permutations): Joint vectors
  and velocities round trip both ways. Configurations round trip outside a
  band of 0.001 rad around a vertical pitch (up to the sign of the
  quaternion); inside it the roll is dropped: the rotation is off by at most
  0.002 per coefficient (base_rotation_band) and the full claim is false
  (base_band_refuted). A map that is not a permutation loses joints or is
  undefined. [joints_duplicate_refuted, base_band_refuted]
* **C64** (Limits and gains read back, and range checks use them): Exact for
  values and limits that are numbers; a value that is not a number is reported
  in range (range_check_nan_refuted). [range_check_nan_refuted]
* **C65** (The joint trajectory plays each point once, in order, and holds the
  last): Refinement of the entity to a player that emits every point of every
  accepted trajectory once and in order and holds the last one, for every
  history after initTraj. Refuted readings: the first step without initTraj is
  undefined, points with one to four positions are undefined, the last five
  coefficients of the posture are uninitialised, the waist position is rotated
  by theta, stamps in the text are not read so that a second initTraj is never
  played, trajectories with stamp zero are ignored. The regular expressions of
  the text parser are not modelled (only the stream reads of the header).
  [pose_tail_refuted, waist_position_refuted, step_without_init_refuted,
  short_point_refuted, zero_stamp_refuted, init_again_refuted]
* **C66** (Reader replays the loaded rows in order with the selected columns):
  For every history of load, clear, rewind, resize and evaluation with files
  of lines of at most 1023 characters. Refuted readings: a longer line is cut
  and the rest of the file ignored, rows loaded after the end was met are not
  played before rewind, a row shorter than the matrix leaves the previous
  matrix. The conversion of text to numbers is left abstract.
  [long_line_refuted, load_after_end_refuted, matrix_stale_refuted,
  matrix_negative_refuted]
* **C67** (Stop watch statistics are consistent): For every history of start,
  stop, reset, on and off in one time mode. Refuted readings: a measure of
  zero is forgotten by the minimum; pause mixes two clocks and its time is
  lost in the last time. [zero_measure_refuted, pause_refuted,
  pause_last_refuted]
* **C68** (Calendar runs the always events then the events of the tick): For
  every history of registrations, pings and stops of permanent events.
  Functions that change the calendar while it runs are in C123. Refuted
  readings: stopping with another documentation or before any permanent event
  raises. [stop_other_doc_refuted, stop_first_refuted, stop_twice_refuted]
* **C69** (Interactive loop commands are never lost): Every interleaving of
  reads and writes, from every state. The exact condition is proved: play and
  once are obeyed unless the thread has already decided to pause; that state
  is reachable, so the unconditional reading is refuted, as is the one of quit
  just after the first play. [play_lost_refuted, quit_lost_refuted,
  play_twice_refuted, restart_refuted, once_first_refuted]
* **C70** (The posture shortcut gives the same quality as the general
  computation): Higher priorities are served; optimal only when the null space
  basis does not move the free-flyer; undefined as first task without
  projector; both refuted with witnesses. [solver_posture_first_refuted,
  solver_posture_not_optimal_refuted]
* **C71** (The control law is defined for every stack): Defined as long as no
  task grew since it was first solved (and the posture shortcut is off);
  refuted otherwise. [solver_growth_undefined_refuted]
* **C74** (The device never exceeds the velocity limits when sanity checks are
  on): Only the stored velocity of the second order mode is clamped; the
  applied velocity is not (refuted theorem).
  [device_velocity_bound_ineffective_refuted]
* **C75** (Once its checks are accepted a device step is always defined): A
  new device has its checks on without bounds and its first step is undefined
  (refuted theorem). [device_new_step_undefined_refuted]
* **C76** (The written graph is named after the file it is written to): Holds
  for plain file names; with a directory the name is wrong (refuted).
  [graph_name_directory_refuted, graph_name_dotted_directory_refuted,
  graph_braces_refuted, graph_deleted_refuted]
* **C77** (Comparisons reduce over all components and binary sums act
  component by component):  [binary_sizes_unchecked_refuted]
* **C78** (The temporal convolution uses exactly the latest samples): For
  samples of constant size; another size silently truncates the sum.
  [convolution_size_change_refuted]
* **C79** (Gradient ascent accumulates rate times gradient): Exact reals;
  another gradient size after the first evaluation is undefined.
  [gradient_ascent_size_refuted]
* **C80** (Periodic motions are on their wave): From the start of the motion
  on; before the start the unsigned subtraction wraps (refuted); a null
  period, which the setter accepts, is a division by zero.
  [motion_before_start_refuted]
* **C81** (Neck limitation): For sign 1; for sign -1 the tilt is sent to the
  opposite of the limit (refuted). [neck_sign_refuted]
* **C83** (Workspace clamping weights): From the first evaluation at a
  positive time on; up to time 0 the second matrix is full of ones (refuted);
  the smooth mode, not selectable, is not complementary (refuted).
  [clamp_ignores_position_refuted, clamp_time_zero_refuted,
  clamp_smooth_refuted]
* **C84** (Parameter servers share robots through the registry): Refinement of
  the servers to a log of commands per robot for all histories that are
  defined. Findings: init_simple without exactly one robot throws but leaves
  the server marked as initialised, the next command dereferences a null
  pointer; range checks before init do too. [init_simple_refuted,
  read_before_init_refuted, init_simple_twice_refuted, init_nan_refuted]
* **C86** (Mimic joints are found in the robot description): The XML parser is
  external. Findings: a mimic joint without name is reported under the name of
  the previous joint. [mimic_unnamed_refuted, mimic_attribute_name_refuted]
* **C89** (Rotation error of the six dimensional point feature): Full rate
  proved below a half turn. Finding: the rotation rows of the Jacobian are
  those of the angular velocity, not of the rotation vector, so an individual
  rotation coordinate does not move as its row announces (refuted with a
  witness); at exactly a half turn the rotation vector is discontinuous.
  [point6d_rotation_jacobian_refuted]
* **C92** (Pose feature: jacobian and error derivative): Exact for SE(3) for
  every motion. For R3xSO(3) the exact rate is proved with the extra term (w x
  (t - tdes)) that the code misses, and a witness shows that the unconditional
  statement is false. Rotation errors of exactly half a turn are excluded (the
  logarithm is not continuous there). [pose_columns_refuted,
  pose_reference_rate_refuted]
* **C96** (Relative 6D feature: what the jacobian gives): Finding: one row of
  the jacobian is not the derivative of that component of the error
  (relative6_row_refuted), so selections that cut the translation or the
  rotation are not covered. Finding: the published derivative of the error is
  the one of the plain 6D feature, which ignores the second frame
  (relative6_errordot_refuted). [relative6_row_refuted,
  relative6_errordot_refuted]
* **C97** (Vector feature: error, jacobian, descent): A gain cannot be imposed
  on all three components (vector3_gain_refuted). [vector3_gain_refuted]
* **C98** (Line distance feature: error and jacobian): Finding: the error is
  not the distance (line_distance_refuted). Finding: the jacobian drops the
  effect of the third coordinate of the direction (line_rate_refuted);
  line_rate_missing gives the exact rate, line_rate_partial the case where
  that term vanishes. [line_distance_refuted, line_rate_refuted]
* **C99** (Point projecter: image and depth of a point): Holds only for
  homogeneous points in a build without assertions (projecter_image_partial);
  a three dimensional point is multiplied by a 4x4 matrix
  (projecter_point_refuted), and with assertions nothing can be projected
  (projecter_assert_refuted). [projecter_point_refuted,
  projecter_assert_refuted]
* **C100** (Trajectory text is read back): Every text of the documented form
  is read back except for its time stamp; trajectory_reading describes the
  outcome for every text. Findings: the stamp is not read, exponents are
  dropped, numbers without a point are skipped, without joint names a piece of
  a number is taken for one, a text without names is read for ever, what
  follows the trajectory may be read as points, copies lose the joint names.
  The regular expression engine of boost is external and modelled (leftmost,
  greedy, backtracking). [trajectory_stamp_refuted,
  trajectory_exponent_refuted, trajectory_integer_refuted,
  trajectory_no_joint_refuted, trajectory_empty_loops_refuted,
  trajectory_trailing_refuted, trajectory_copy_refuted]
* **C101** (Python matrix utilities convert poses consistently): Real
  arithmetic. Findings: tr2rpy returns yaw first, so rpy2tr(*tr2rpy(M)) is not
  M; generateOrthonormalM gives a reflection (determinant -1) for half of the
  draws although its comment says SO3; vectorToTuple keeps only the first
  column of a matrix with several rows. [tr2rpy_order_refuted,
  orthonormal_so3_refuted, vector_to_tuple_cut_refuted]
* **C102** (The loader runs only a live, started graph and releases what it
  loaded): The operating system and the pool of dynamic-graph are modelled by
  what the loader observes of them; command line parsing and the Python
  interpreter are not modelled. Findings: clean up does not forget the device
  name, so cleaning up and then destroying the loader ends the program; a
  library without create function stays open; initialising twice loses the
  first interface; starting before loading uses a null pointer; an exception
  of the interface loses its class. [loader_second_cleanup_refuted,
  loader_double_deletion_refuted, loader_create_missing_refuted,
  loader_reinit_refuted, loader_start_early_refuted,
  loader_exception_sliced_refuted]
* **C103** (Following a file gives every later line once and in order): The
  stream operations are those of libstdc++ (get, tellg after end of file).
  Findings: an empty line stops the reader for ever; a last line that is not
  complete at a look makes the whole file be given again; a line longer than
  255 characters is cut and loses a character. [stream_blank_refuted,
  stream_partial_line_refuted, stream_long_line_refuted]
* **C104** (History restores the state of the last recorded tick): The zmp is
  not modelled; the OpenHRP dump is in C121. Findings: the printed time T0 is
  the index in the list and not the time; when recording starts later than
  tick 0 another state is restored. [history_time_refuted,
  history_late_start_refuted, history_zero_refuted]
* **C105** (Posture meta task): Findings: a call with a posture raises until
  some call without one has been made; the size is shared by all robots of the
  process; a posture given as a tuple of integers truncates the values of the
  limbs; a call without limbs controls no joint; the caller's array is
  modified even by a call that raises. [gotoq_first_posture_refuted,
  gotoq_two_robots_refuted, gotoq_integers_refuted, gotoq_no_limb_refuted,
  gotoq_caller_array_refuted]
* **C106** (Desired pose helpers): Findings: a position given as a list, or
  with a wrong number of values, sends the task to the origin without an
  error; a column of three values is refused; a gain given as two values is
  ignored. [reference_list_refuted, reference_column_refuted,
  set_gain_ignored_refuted]
* **C107** (Operational point modifier of a meta task): Finding: a refused
  assignment while no matrix is in use plugs the modifier with an old matrix
  although the attribute reads False. [opmodif_refused_refuted]
* **C108** (Outputs follow inputs): The general theorem holds for every graph
  and history and its condition is exact. 56 outputs of the code meet it. It
  fails for 25 pairs of an output and an input that the output reads without
  declaring it (jacobian of the one dimensional, vector and joint limits
  features, error of the posture and line features, jacobian of an operational
  point that is not an end effector, admittance, Kalman gain, continuous and
  derivative tasks). [entities_fresh_refuted, posture_error_refuted]
* **C109** (Dependencies of a reference): That the present reference is
  declared holds for every history. That no other is holds for histories that
  take a reference away before giving another; it is false otherwise.
  [reference_leftover_refuted]
* **C110** (The free flyer of the device moves with the commanded velocity):
  Exact reals; the integration of SE(3) is pinocchio's, modelled from its
  documentation. Proved for every sequence of commands without checks;
  moves_unique shows that the specification determines the pose. Findings: the
  free flyer pose has no value before the first step and is not updated by
  setState; a null command replaces a negative yaw by other angles of the same
  attitude, and with checks on these are cut at the bounds, so that a robot at
  rest turns. [free_flyer_pose_undefined_refuted,
  free_flyer_set_state_refuted, free_flyer_rest_refuted,
  free_flyer_bounds_refuted]
* **C112** (Time stamps): Doubles by Flocq's rounding. The agreement of the
  two synchronised outputs is false: synchroDouble reads the clock again
  (refuted with a witness); it holds when the clock has not moved.
  [synchro_outputs_agree_refuted]
* **C113** (Timer): Everything but the last point, which is false when the
  clock is set back (gettimeofday is not monotonic; refuted with a witness).
  [timer_nonnegative_refuted]
* **C114** (Exceptions): False of the exceptions of tasks and features, which
  replace the text by the details (refuted); proved for the other classes.
  Details are cut at 255 characters. [exception_details_refuted]
* **C115** (Python position features): keep of the relative feature only makes
  the error zero when the base is at its reference; a numpy reference is
  refused and errordot and velocity are not found by name.
  [relative_feature_keep_refuted, position_feature_array_refuted,
  position_feature_signal_refuted]
* **C116** (A viewer added to a robot sees every state and does not change
  what the robot does): For a viewer added once: every call does what it did,
  every state is sent once and in order (viewer_sees_every_state); a missing
  viewer changes nothing (viewer_missing). False of the code: adding the
  viewer twice makes every call raise RecursionError (viewer_twice_refuted);
  another robot of the class moves then raises (viewer_other_robot_refuted);
  the name "robot" is not translated to "hrp" (viewer_name_refuted).
  [viewer_twice_refuted, viewer_other_robot_refuted, viewer_name_refuted]
* **C118** (A relative meta task is satisfied exactly when the two points have
  the relative pose asked for): Proved for the helpers. keep() only keeps when
  the base is at the pose given for it, and neither keep() nor ref has an
  effect before a helper was called (refuted in general): the reference
  feature has two poses and both must have a value.
  [meta_relative_keep_refuted, meta_relative_ref_refuted]
* **C119** (A visual point meta task controls the image of its target): Proved
  for Python 2, builds without assertions and targets in homogeneous
  coordinates. In Python 3 the constructor always raises, since it asks for
  the length of a filter object; see also C99. [visual_task_refuted]
* **C120** (The outputs of the trajectory player agree and the player makes
  one step per tick): Proved once a first trajectory was given. Before, an
  output that is read looks at the front of an empty queue (refuted).
  [outputs_without_init_refuted]
* **C121** (A recorded history writes what it recorded): False when the point
  signal gives numpy arrays: every recording raises after storing the position
  and no point is kept (zmp_array_refuted). The time stamps count samples of 5
  ms whatever the period of recording, and the argument sample is not read.
  [zmp_array_refuted]
* **C122** (The viewer log holds what was displayed): False for a name with a
  slash: opening the log raises and the element is not displayed any more
  (log_slash_refuted). [log_slash_refuted]
* **C123** (Actions that use the calendar while it runs): Actions are
  arbitrary functions of the tick and of the calls so far, as long as they
  register, stop or add pings. The full property, every permanent action
  called at every tick, fails when an action stops itself or an earlier one
  (live_stop_skips_refuted), and a run need not end (live_loop_refuted).
  Missing: actions that run the calendar themselves. [live_stop_skips_refuted,
  live_loop_refuted]
* **C124** (References of a feature given by name): Proved for every history
  in which nothing is deleted and objects have distinct addresses. Missing: an
  error for a feature of another class, and histories with deletions, which
  are undefined (refuted theorems). [reference_other_class_refuted,
  reference_none_refuted, reference_deleted_refuted]
* **C125** (The stack and the tasks print themselves faithfully): Lines of the
  display and of the graph for every stack and every list of features; order
  of the stack read back from the text and from the edges. Partial: a task may
  be pushed twice, and the graph then has a loop (stack_graph_loop_refuted).
  [stack_graph_loop_refuted]
* **C126** (The report of the stop watch shows what was measured): Lines and
  columns of the report for every history. Partial: with a name of eighty
  characters or more there is nothing between the name and the minimum, so the
  report does not tell them apart (watch_report_name_refuted).
  [watch_report_name_refuted]
* **C127** (The entities that hold a constant hand out what was set last): The
  last clause is false of the code: the fields rows and cols of the entity are
  never written (constant_sizes_refuted). The value before any command is that
  of dynamic-graph, a parameter. [constant_sizes_refuted]
* **C128** (The center of mass meta task drives the center of mass to its
  reference): The last clause is false of the code: a reference with more
  coordinates than the center of mass is accepted and its last coordinates are
  left out (com_task_long_reference_refuted); a shorter one is refused only
  when it has fewer coordinates than are selected (see C26). Real arithmetic.
  [com_task_long_reference_refuted]
* **C129** (The quaternion class converts to and from rotations): False of the
  code for half turns (the three branches take the root of the same number,
  are scaled by 0.5 s where 0.25 / s is needed, and the real part is a sum
  where a difference is needed) and for every rotation vector (the full angle
  is used and the vector is divided by the sine). The file is in no build
  list. Real arithmetic; a division by zero is a distinct outcome.
  [quaternion_half_turn_refuted, quaternion_half_turn_undefined_refuted,
  quaternion_of_vector_refuted]
* **C130** (The control step runs its periodic calls around the control): The
  positive parts are proved for every history; that every due call is made,
  once per time, is false of the code: two refuted theorems give the
  witnesses. Factors are not null (a null factor is a division by zero,
  C-level undefined behaviour). [device_call_starved_refuted,
  device_call_repeated_refuted]
* **C131** (An operator entity hands out its operator applied to its inputs):
  Proved for every graph, operator and history when the parameters are set
  before the first reading, and for a command followed by a new input; that a
  command is seen by the next reading is false of the code (refuted for every
  graph, operator and parameters). The rule by which the library computes an
  output again is that of C108, an assumption on dynamic-graph.
  [operator_command_stale_refuted]
* **C132** (Functions decorated with a time run at that time): Proved for
  every history; stopping a function through the name under which it was
  decorated is false of the code (decorated_stop_refuted: ValueError, and the
  function goes on being called). [decorated_stop_refuted]
* **C133** (Stepping an interruptible loop by hand): Proved for every
  interleaving. The two overlaps and the restart that never restarts are
  findings, with witnesses. [restart_refuted, next_overlap_refuted,
  next_uncounted_refuted]
* **C135** (Traces hold exactly the enabled messages): Contents, order,
  filtering and silence when closed are proved for every history (contents:
  histories whose writes succeed). The last sentence is false of the code:
  trace_stuck_refuted shows that after one failed write neither openFile nor
  closeFile releases the file, and nothing is written by any later history.
  [trace_stuck_refuted]
* **C136** (Setting flags by a command): All but the last clause are proved
  for every pool, text and history. The last is false of the code:
  flagset_help_refuted and flagset_range_refuted show that the form {#&
  [flagset_help_refuted, flagset_range_refuted]
* **C137** (Commands of the solver act on task names): Proved for every
  history without deletion of a task or of the pool. With them it is false of
  the code: the name of a deleted task is still accepted by push, and once the
  pool is destroyed a name can denote a task other than the one listed under
  it. [stackcmd_deleted_refuted, stackcmd_recycled_refuted]
* **C139** (Text of the force sensors): The contents are proved for every
  history that sets the four extremities. Two clauses are false of the code:
  printing is undefined exactly when an extremity was never set, and the ids
  of the limits are not printed. [force_display_undefined_refuted,
  force_display_limits_refuted]
* **C140** (A printed trajectory shows its joints, its points and its time):
  Proved for the text of a trajectory, the fills and the equality of stamps.
  The clause on printed stamps is false of the code: nanoseconds are scaled by
  1e-6, so the printed number is the time in seconds only for whole seconds,
  two different stamps can print the same, and the order can be reversed. The
  text of a double is a parameter, assumed on one line, injective and never a
  title (the default precision of a stream is not injective).
  [stamp_shown_distinct_refuted, stamp_shown_order_refuted]
* **C141** (A printed robot shows what was last set): Proved for robots whose
  four force sensors are named and whose joints are given: the whole text,
  table by table, from the history. False of the code elsewhere: printing is
  undefined exactly when one of these was never set, and the joint limits, the
  position of the force sensor and the joint of the inertial unit are never
  printed. How a number, a vector and the property tree are written is a
  parameter. [robot_text_undefined_refuted, robot_text_unshown_refuted]
* **C142** (A printed gain shows its coefficients and the function it
  computes): Proved for the coefficients and the gain last computed (the text
  of a number is a parameter, free of the characters around it). The last
  clause is false of the code: the text writes a.exp(-b(x-d))+c while the gain
  is a/2 (tanh(-b(x-d))+1)+c; at every error they agree only when a is zero,
  and for a positive the written value is larger. The text also leaves a
  parenthesis open. [hyperbolic_text_open_refuted,
  hyperbolic_text_formula_refuted]

## 6. Assumptions of each theorem

As printed by `Print Assumptions` for every theorem of MANIFEST.json.
D = ClassicalDedekindReals.sig_forall_dec, N = ClassicalDedekindReals.sig_not_dec,
F = FunctionalExtensionality.functional_extensionality_dep, K = Classical_Prop.classic.

### Closed under the global context

* `Bound_Props`: bound_history bound_constructors bound_is_single_or_double
  bound_print_read bounds_print_read num_io_decimal
  bounds_empty_not_consumed_refuted bounds_count_raises bounds_start_raises
  bound_read_grammar bounds_read_grammar
* `CalDeco_Props`: decorate_registers decorated_docs decorated_call
  decorated_runs decorated_stop decorated_stop_refuted run_prints
* `CalLive_Props`: live_forward live_same_tick live_quiet live_stop_later
  live_stop_skips_refuted live_loop_refuted live_stop_unknown
* `Calendar_Props`: calendar_step calendar_history calendar_run fast_forward
  fast_forward_calls stop_once register_group stop_other_doc_refuted
  stop_first_refuted stop_twice_refuted register_text
* `Closed_Props`: posture_tasks_decrease posture_tasks_others_still
  posture_tasks_run posture_gain_range posture_limits_suffice
  posture_tasks_converge posture_tasks_constant_gain
* `Const_Props`: constant_last_set constant_never_set constant_kind
  constant_sizes_refuted constant_commands
* `Debug_Props`: trace_contents_partial trace_untouched trace_closed
  trace_stuck_refuted
* `Deps_Props`: outputs_fresh outputs_fresh_iff undeclared_input_ignored
  entities_fresh_partial entities_fresh_refuted posture_error_refuted
  reference_declared reference_only_partial reference_leftover_refuted
* `DevTick_Props`: device_step_trace device_step_raised device_trace_ordered
  device_ignores_calls device_call_starved_refuted
  device_call_repeated_refuted device_step_report device_null_factor
* `Device_Float`: device_positions_bounded_partial
  device_positions_bounded_freeflyer device_steps_keep_bounds
  device_nan_control_ignored device_direct_mode_unbounded_refuted
  device_null_period_nan_refuted saturate_spec saturate_nan
  device_velocity_bounded_partial device_velocity_bound_ineffective_refuted
* `Device_Props`: bounds_setters sanity_setter state_setter device_mode
  device_mode_commands device_bounds_paired device_bounds_sized_partial
  device_resize_keeps_bounds_refuted velocity_setter set_root_refuted
  device_step_defined_partial device_new_step_undefined_refuted
* `EventText_Props`: event_list_text event_add_signal event_fires_listed
  event_list_faithful
* `Exc_Props`: exception_code exception_print exception_message
  exception_details_partial exception_details_refuted exception_details_cut
* `Feature_Props`: chosen_spec generic_dimension_history
  generic_error_selected_partial generic_error_no_reference
  generic_jacobian_selected generic_error_sizes
  generic_resize_undefined_refuted errordot_selected errordot_zero
  errordot_sizes posture_consistent_partial posture_jacobian_product
  posture_resize_inconsistent_refuted posture_select_refused
* `Filter_Fir_Props`: fir_refines fir_size_zero_refuted
* `Filter_Signal_Props`: euler_uninitialized_refuted euler_pop_defined
* `FlagCmd_Props`: flagset_accepts flagset_refuses flagset_history
  flagset_help_refuted flagset_range_refuted
* `Flags_Props`: flags_and_pointwise flags_or_pointwise flags_not_pointwise
  flags_de_morgan flags_read_defined flags_to_bool_iff_some_index_set
  flags_edit_history flags_print_read flags_print_construct
  flags_print_read_same_default flags_read_accepts flags_read_rejects
  flags_construct_alphabet flags_print_loses_default_refuted
  flags_blank_ambiguous_refuted
* `ForceText_Props`: force_display_text_partial
  force_display_undefined_refuted force_display_limits_refuted
* `GainText_Props`: adaptive_text_determines hyperbolic_text_determines
  hyperbolic_text_open_refuted
* `Geom_Props`: se3_vector_roundtrip se3_vector_short composer_roundtrip
* `HistDump_Props`: dump_files dump_raises
* `Kalman_Props`: covariance_psd tick_spec variance_psd variance_decreases
  gain_optimal variance_information state_least_squares exact_measurement
  estimation_error variance_dependencies_refuted covariance_history
  initial_conditions
* `Line_Props`: projecter_point_refuted
* `Loader_Props`: loader_running loader_well_behaved loader_iteration
  loader_released loader_no_double_deletion loader_second_cleanup_refuted
  loader_double_deletion_refuted loader_create_missing_refuted
  loader_reinit_refuted loader_start_early_refuted
  loader_exception_sliced_refuted loader_names loader_initialization
* `LoopNext_Props`: restart_refuted shortcut_calls step_by_step stop_rests
  loop_states_sane next_overlap_refuted next_uncounted_refuted
* `Loop_Props`: pause_stops play_obeyed_partial play_lost play_running
  first_play once_once quit_ends play_lost_refuted quit_lost_refuted
  play_twice_refuted once_first_refuted once_scheduled first_play_scheduled
  play_scheduled play_raises
* `Madgwick_Props`: beta_nan_refuted beta_double
* `Mailbox_Props`: mailbox_reads_last_post mailbox_busy_read
  mailbox_mutual_exclusion mailbox_only_posts_wait mailbox_mutex_released
  mailbox_initial_timestamp_refuted mailbox_signal_misses_post_refuted
  mailbox_signal_access mailbox_signal_first_access
* `MatUtil_Props`: matrix_to_tuple vector_to_tuple vector_to_tuple_no_column
* `Meta_Props`: posture_limbs relative_points_independent op_point_exist
  short_name_last opmodif_raises
* `Mimic_Props`: mimic_joints_found mimic_unnamed_refuted
  mimic_attribute_name_refuted
* `OpGraph_Props`: operator_graph operator_command_then_input
  operator_command_stale_refuted operator_graph_entities operator_parameters
* `Operator_Props`: selecter_output selecter_unchecked_refuted
  component_output stack_output matrix_selector_output matrix_column_output
  selecter_outside component_outside stack_outside matrix_selector_outside
  matrix_column_outside comparison_output binary_sizes_unchecked_refuted
* `Pinv_Props`: pinv_truncated pinv_penrose penrose_unique
  penrose_least_squares penrose_least_norm damped_formula damped_minimises
  damped_bound left_cols_orthonormal pinv_negative_threshold_refuted
  damped_zero_refuted
* `Point6d_Props`: point6d_dimension point6d_frame
* `Pool_Props`: pool_lookup pool_no_overwrite pool_no_overwrite_feature
  pool_graph_tasks pool_dangling_refuted graph_name_plain_partial
  graph_name_directory_refuted graph_name_dotted_directory_refuted
* `Pose_Props`: pose_dimension_ok
* `PyFeat_Props`: relative_feature_names position_feature_frame
  position_feature_array_refuted position_feature_signal_partial
  position_feature_signal_refuted position_feature_defined
* `Reader_Props`: next_selects reader_step reader_replays_partial
  rewind_replays_all rows_loaded matrix_row_major long_line_refuted
  load_after_end_refuted matrix_stale_refuted reader_size reader_keeps_outputs
  reader_next_keeps matrix_negative_refuted
* `RefName_Props`: graph_lines graph_written_partial graph_braces_refuted
  graph_deleted_refuted reference_by_name reference_unknown
  reference_other_class_refuted reference_none_refuted
  reference_deleted_refuted reference_dependencies
* `Rel6_Props`: relative6_init_refused
* `RobotText_Props`: robot_text_partial robot_text_undefined_refuted
  robot_text_unshown_refuted
* `RobotWorld_Props`: server_range_check servers_refine robots_registered
  command_before_init init_rejected server_write servers_defined_partial
  joint_name_conversion init_simple_refuted read_before_init_refuted
  init_simple_twice_refuted init_nan_refuted init_simple_first
* `Robot_Props`: name_has_last_id id_has_consistent_name
  force_id_has_consistent_name id_name_given extremities stale_name_refuted
  joints_roundtrip joints_duplicate_refuted joints_undefined joints_empty
  joints_sizes_unchecked limits_last range_check_partial range_check_unset
  robot_reads_back range_check_nan_refuted parameter_value parameter_alias
* `Sched_Props`: sequencer_runs_due_events_partial sequencer_inert_refuted
  sequencer_clear_shared_event_refuted sequencer_clear sequencer_null_refuted
  periodic_tick periodic_window periodic_null_factor
  periodic_negative_times_refuted latch_holds_last_request event_fires
  event_without_repeat event_period event_initial_true_refuted
  event_fires_while_false_refuted event_period_changed
* `ShowText_Props`: pose_text_components pose_text_dimension
  pose_text_selection sequencer_text periodic_text
* `Solver_Props`: solver_runs solver_priority solver_priority_exact
  solver_priority_bound solver_optimal solver_smallest_increment
  solver_rejected_unchanged solver_rejected_skipped_partial
  solver_rejected_first_refuted solver_basis_orthonormal
  solver_start_orthonormal solver_increments_orthogonal solver_start_checked
  solver_start_kept solver_selection solver_excluded_joint
  solver_posture_optimal_partial solver_posture_first_refuted
  solver_posture_not_optimal_refuted solver_defined_partial
  solver_growth_undefined_refuted solver_characterised
* `StackCmd_Props`: stackcmd_names_partial stackcmd_list
  stackcmd_deleted_refuted stackcmd_recycled_refuted
* `StackText_Props`: stack_display stack_display_faithful stack_graph_lines
  stack_graph_order stack_graph_loop_refuted task_display_lines
  task_graph_lines task_history_display feature_graph_reference
  feature_graph_undefined
* `Stack_Props`: stack_spec_deterministic stack_command_spec
  stack_command_refused stack_command_undefined stack_history
  stack_moves_keep_other_order stack_count stack_exist_iff stack_down_after_up
  stack_up_after_down stack_extreme_moves_do_nothing stack_dependencies_match
  stack_dependencies_duplicate_refuted stack_inputs_kept
  stack_empty_until_sized stack_push_refused_iff stack_list_faithful
* `Stream_Props`: stream_lines stream_next stream_blank_refuted
  stream_partial_line_refuted stream_long_line_refuted stream_missing_file
  stream_file_comes history_restores history_time_refuted
  history_late_start_refuted history_zero_refuted
* `Task_Props`: task_error_concat task_error_concat_partial task_error_single
  task_error_empty task_error_history task_error_lost_refuted
  task_jacobian_stack task_jacobian_mixed task_jacobian_columns_fixed
  task_jacobian_empty task_jacobian_history
  task_jacobian_swapped_resize_refuted task_derivative_concat
  task_derivative_sizes task_reference taskpd_errordot taskpd_reference
  task_unilateral_bounds task_unilateral_short_undefined
  task_derivative_short_undefined selection_history selection_only_shrinks
  feature_list_history list_features_injective
* `Tools2_Props`: binary_int
* `Tools_Float_Props`: gripper_zero_is_final gripper_never_recovers_refuted
  gripper_factor_float_range
* `Tools_Props`: com_freezer_partial com_freezer_modes
  com_freezer_delay_refuted
* `TrajShow_Props`: trajectory_text_lines trajectory_text_determines
  transfer_sets transfers_last stamp_equal stamp_shown_exact
  stamp_shown_distinct_refuted stamp_shown_order_refuted
* `TrajSig_Props`: outputs_without_init_refuted
* `TrajText_Props`: trajectory_text_partial trajectory_positions
  trajectory_reading points_end_unused trajectory_stamp_refuted
  trajectory_exponent_refuted trajectory_integer_refuted
  trajectory_no_joint_refuted trajectory_empty_loops_refuted
  trajectory_trailing_refuted trajectory_copy_refuted
* `Traj_Props`: player_complete player_prompt playback_complete
  header_stamp_unread step_without_init_refuted
* `VLog_Props`: log_holds_updates log_forwards log_other_files log_fresh
  log_slash_refuted
* `Variadic_Props`: switch_selects switch_no_selection variadic_inputs_partial
  variadic_get_signal variadic_numbering variadic_number
  variadic_number_conflict_refuted mix_output mix_bad_input mix_segments
  adder_empty_refuted multiplier_output bool_output bool_empty_refuted
* `Viewer_Props`: viewer_sees_every_state viewer_missing viewer_twice_refuted
  viewer_other_robot_refuted viewer_name_partial viewer_name_refuted
  viewer_missing_class

### D

* `Feature_Props`: visual_point_error
* `Geom_Props`: skew_to_vector_opposite_partial pose_quaternion_sizes
  homo_to_twist_same axis_sequence_default_refuted
* `Line_Props`: vector3_error vector3_sizes vector3_dimension
* `MatUtil_Props`: vector_to_tuple_cut_refuted
* `Meta_Props`: opmodif_refused_refuted
* `Operator_Props`: convolution_size_change_refuted
* `PyFeat_Props`: relative_feature_defined
* `RobotBase_Props`: velocity_no_joints
* `Tools2_Props`: gradient_ascent_size_refuted gr_control_law
  gr_control_sizes_undefined
* `Tools_Props`: joint_limitator_width
* `Traj_Props`: zero_stamp_refuted
* `Variadic_Props`: adder_added_input_refuted adder_number_resets adder_new

### D, F

* `Admit_Props`: admittance_bounded_partial
  admittance_negative_saturation_refuted admittance_commands admittance_decay
  admittance_power admittance_output_bound_refuted
  admittance_sensor_pose_refuted admittance_settles clamp_reference_angle
* `DerivLoop_Props`: derivative_of_integral derivative_of_device
* `DerivV_Props`: derivator_vector derivator_vector_telescopes
  derivator_skips_refuted derivator_size_refuted
* `Device_Props`: device_first_order device_second_order accelerated_exact
  device_no_integration
* `EulerV_Props`: euler_matrix_memory euler_leading_coefficient_refuted
  euler_rectangular_refuted euler_leading_coefficient euler_matrix_recurrence
  euler_vector_recurrence euler_matrix_period euler_matrix_integrator
  euler_matrix_coefficients euler_vector_initialize euler_coefficients
* `Feature_Props`: joint_limits_error joint_limits_range joint_limits_jacobian
  joint_limits_jacobian_half_partial
  joint_limits_jacobian_not_derivative_refuted visual_point_interaction
  visual_point_refused feature1d_gradient
* `FiltDiff_Props`: differentiator_coordinates differentiator_equation
  differentiator_before_init_refuted differentiator_size_refuted
* `Filter_Causal_Props`: causal_refines_partial
  causal_difference_equation_partial causal_switch causal_steady_state
  causal_switch_oldest_refuted causal_fir_refuted causal_ddx_order_two_refuted
* `Filter_Fir_Props`: fir_convolution_partial fir_finite_memory
  fir_scalar_stale_refuted fir_vector_coordinates
* `Filter_Signal_Props`: derivator_outputs derivator_telescopes euler_step
  euler_recurrence euler_pure_integrator euler_derivative euler_period
  euler_initialize_checks euler_initial_velocity_refuted
  euler_constant_input_spike_refuted euler_derivative_none euler_initialize
  euler_configuration ema_hull ema_closed_form ema_constant
  ema_bad_alpha_refuted ema_first_output_refuted ema_default
* `Geom_Props`: quaternion_product_inverse rotation_inverse
  skew_to_vector_refuted twist_product twist_identity twist_inverse
  twist_velocity_field rigid_inverse
* `HistDump_Props`: zmp_recorded zmp_not_recorded zmp_array_refuted
* `Line_Props`: vector3_zero vector3_rate line_rate_partial line_rate_missing
  line_sizes projecter_image_partial projecter_assert_refuted
* `Madgwick_Props`: gyro_kinematics corrective_gradient error_is_vertical
  beta_range
* `MatUtil_Props`: dist_vector py_quaternion
* `MetaRel_Props`: visual_task_creates visual_task_refuted
* `Meta_Props`: opmodif_last opmodif_false opmodif_refused
* `OpPointE_Props`: op_point_history op_point_chain op_point_identity
  op_point_stale_refuted
* `OpPoint_Props`: op_point_world op_point_body op_point_body_world
  op_point_jacobian_world op_point_jacobian_body
* `Operator_Props`: weighted_adder_output substraction_output
  convolution_output
* `PdLoop_Props`: pd_loop_gains pd_loop_leaves pd_loop_ready critical_gains
* `Point6d_Props`: point6d_jacobian
* `Pose_Props`: pose_relative
* `Rel6_Props`: relative6_velocity relative6_columns
* `RobotBase_Props`: velocity_roundtrip
* `Tools2_Props`: gradient_ascent neck_limitation_partial neck_sign_refuted
  pd_control_law
* `Tools_Props`: joint_limitator_partial joint_limitator_closed_loop
  joint_limitator_period_refuted gripper_increment gripper_factor_range
  gripper_recovers gripper_reference_one_partial gripper_many_fingers_refuted
  gripper_offset
* `VQuat_Props`: quaternion_product quaternion_rotation
* `Variadic_Props`: adder_output_partial
* `WatchText_Props`: watch_report watch_report_all watch_report_off
  watch_report_name_refuted watch_report_no_measure
* `Watch_Props`: watch_measures watch_statistics_partial stop_unknown
  off_is_inert zero_measure_refuted pause_refuted pause_last_refuted
  off_raises_nothing watch_time_so_far watch_no_mode pause_effect

### D, N, F

* `Admit_Props`: admittance_output_frame clamp_projectors_partial
  clamp_ignores_position_refuted clamp_time_zero_refuted clamp_smooth_refuted
  clamp_reference
* `GainText_Props`: hyperbolic_text_formula_refuted
* `Gain_Props`: norm_zero_iff adaptive_default hyperbolic_range
  hyperbolic_mean hyperbolic_slope_quarter hyperbolic_constant
  hyperbolic_value_at_zero_refuted hyperbolic_forced
* `Geom_Props`: pose_quaternion_roundtrip quaternion_roundtrip rpy_is_rotation
  pose_utheta_sizes axis_sequence_rotation axis_sequence_short
* `Line_Props`: vector3_norm line_error_distance line_error_zero
  line_distance_refuted line_rate_refuted
* `Madgwick_Props`: update_unit_norm output_unit_norm update_defined
  filter_unit_norm filter_fixed_point filter_gyro_only filter_descent
  null_quaternion_refuted filter_before_init filter_defaults
* `MatUtil_Props`: py_to_matrix py_cpp_same_matrix orthonormal_basis
  orthonormal_defined orthonormal_so3_refuted orthonormal_swap
* `MetaRel_Props`: meta_relative_gain_start
* `Meta_Props`: reference_pose reference_column_refuted
* `PdLoop_Props`: pd_loop_follows
* `Rel6_Props`: relative6_errordot
* `RobotBase_Props`: base_to_quaternion
* `Task_Props`: taskconti_reference taskconti_continuous taskconti_not_started
* `Tools2_Props`: motion_period_partial motion_period_repeats
  motion_null_period motion_before_start_refuted motion_period_resized
* `TrajSig_Props`: outputs_agree outputs_same_point outputs_again
  outputs_defined_partial outputs_values outputs_seq
* `Traj_Props`: step_refines init_refines playback_partial point_outputs
  waist_position second_init_ignored pose_tail_refuted waist_position_refuted
  short_point_refuted empty_point_holds init_again init_again_refuted
  init_empty
* `VQuat_Props`: quaternion_of_matrix_partial quaternion_half_turn_refuted
  quaternion_half_turn_undefined_refuted

### D, F, K

* `PdLoop_Props`: proportional_only

### D, N, F, K

* `Admit_Props`: clamp_smooth_weights
* `Clock_Props`: timestamp_milliseconds timestamp_increasing synchro_constant
  synchro_outputs_agree_refuted synchro_outputs_agree_partial timer_wall
  timer_clock timer_nonnegative_refuted timer_last
* `FreeFly_Props`: moves_unique free_flyer_first_order free_flyer_second_order
  free_flyer_pose_undefined_refuted free_flyer_set_state_refuted
  free_flyer_rest_refuted free_flyer_bounds_refuted
* `Gain_Props`: adaptive_at_zero adaptive_decreases adaptive_range
  adaptive_tends adaptive_slope adaptive_constant adaptive_forced
  adaptive_last_setting adaptive_wrong_sign_diverges adaptive_passing_point
  adaptive_passing_point_zero hyperbolic_decreases hyperbolic_tends
* `Geom_Props`: pose_rpy_roundtrip rpy_roundtrip pose_utheta_roundtrip
  utheta_range utheta_vector_roundtrip rpy_utheta_commute
  rpy_quaternion_commute rpy_angles_refuted
* `Line_Props`: vector3_descent vector3_gain_refuted
* `MatUtil_Props`: py_cpp_same_angles py_rpy_roundtrip py_rpy_band
  py_angles_roundtrip tr2rpy_order_refuted
* `MetaCom_Props`: com_task_read com_task_needs_reference
  com_task_default_gain com_task_converges com_task_geometric
  com_task_long_reference_refuted
* `MetaRel_Props`: meta_relative_points meta_relative_goto meta_relative_gotoN
  meta_relative_gotoN_same meta_relative_gain meta_relative_raise
  meta_relative_start meta_relative_jacobian meta_relative_keep_partial
  meta_relative_keep_refuted meta_relative_ref_refuted visual_task_partial
  visual_task_no_reference
* `Meta_Props`: gotoq_returns gotoq_all_or_nothing gotoq_effect gotoq_error
  gotoq_one_size gotoq_humanoid gotoq_first_posture_refuted
  gotoq_two_robots_refuted gotoq_integers_refuted gotoq_no_limb_refuted
  gotoq_caller_array_refuted goto6d_effect gotoNd_effect set_gain
  reference_list_refuted set_gain_ignored_refuted
* `Point6d_Props`: point6d_error point6d_errordot point6d_errordot_noref
  point6d_keep point6d_translation_rate point6d_translation_rate_noref
  point6d_rotation_rate_partial point6d_rotation_jacobian_refuted
  point6d_descent
* `Pose_Props`: pose_error_ok pose_error_zero pose_default_error
  pose_default_errordot pose_rate_SE3 pose_rate_R3xSO3_partial pose_rate_exact
  pose_rate_still pose_errordot_unplugged pose_columns_refuted
  pose_reference_rate_refuted pose_keep_ok pose_decrease pose_straight_line
* `PyFeat_Props`: point6d_error_zero relative_feature_error
  relative_feature_keep_partial relative_feature_keep_refuted
  position_feature_error position_feature_keep
* `Rel6_Props`: relative6_error relative6_error_zero relative6_init
  relative6_descent_partial relative6_decrease relative6_row_refuted
  relative6_errordot_refuted
* `RobotBase_Props`: base_rotation_exact base_rotation_band base_band_refuted
  base_sot_roundtrip base_urdf_roundtrip config_sot_roundtrip_partial
  config_urdf_roundtrip_partial whole_sizes_unchecked
* `SmoothDef_Props`: smooth_reach_default smooth_reach_unset_refuted
* `Tools_Props`: smooth_reach_partial smooth_reach_unchecked_refuted
  smooth_reach_change
* `VQuat_Props`: quaternion_of_vector_refuted
