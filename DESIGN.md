# Design

A formal model of q-optimize/c3 in Rocq (Coq 8.16.1), and proofs about it. The Python source in /repo was read as text; nothing was executed.

## Trusted base

- Coq's kernel (8.16.1), including its conversion and its virtual machine for `vm_compute`. No kernel check is switched off, no plugin is used, no axiom is declared, and nothing is left `Admitted`.
- The axioms of the standard library that `Print Assumptions` lists: `ClassicalDedekindReals.sig_forall_dec`, `ClassicalDedekindReals.sig_not_dec`, `FunctionalExtensionality.functional_extensionality_dep`, `Classical_Prop.classic`. The last section gives them per theorem. Coquelicot is used (complex numbers, derivatives, integrals, series); it adds no axioms of its own. (A listing that counts the fields of sealed library modules also shows `Rdefinitions.RbaseSymbolsImpl`, `Rdefinitions.RinvImpl` and `ssrunder.Under_rel`; these are definitions behind a module signature.)
- That the model says what the Python code does. Each definition cites the lines it was read from. This reading is by hand and cannot be checked by the kernel. The edits in seeded/LOG.jsonl test that the theorems notice wrong programs, they do not test the reading.
- The meaning given to Python, numpy, TensorFlow, hjson and Qiskit primitives, below.

## Conventions of the model

- A Python exception is a value: `Err e` with `e` one of `KeyError`, `ValueError`, `TypeError`, ... (Base.v). Loops and mutation become functions that return the new state, also on failure where the code leaves a changed state behind.
- Floating point numbers are exact reals, complex numbers pairs of reals. Rounding, overflow and NaN arithmetic are not modelled (NaN appears only where the code tests for it).
- Tensors are matrices `nat -> nat -> C` with explicit dimensions and entrywise equality inside them (Mat.v), or lists where the code treats them as sequences.
- `tf.linalg.expm` is the matrix exponential (MExp.v, convergent series), `tf.linalg.eigh` is an oracle with the properties of an eigendecomposition as hypotheses, `fft`/`ifft` the discrete Fourier transform (Dft.v), `tf.matmul` the matrix product, `erf` the normalised integral (Erf.v).
- Automatic differentiation returns the derivative. Random draws are universally quantified arguments. Goal functions and external optimisers are oracles.
- Dictionaries are insertion-ordered association lists with string keys. JSON text is not modelled: hjson is trusted to reproduce JSON values, the custom encoding and decoding hooks are modelled.
- Loops without a structural bound take fuel; running out of fuel is the error `OutOfFuel`, and theorems state when it cannot happen.
- Files: `XModel.v` holds the model, `XProofs.v` lemmas, `XProps.v` the property theorems with their specifications, `Print Assumptions` and examples. `Base.v`, `Mat.v`, `MExp.v`, `MExp2.v`, `RSum.v`, `Erf.v`, `Dft.v` are mathematics without reference to the code.

## Names

A theorem `CNN_...` belongs to property CNN of properties.jsonl. A suffix `_partial` would mark a theorem that proves less than the claim; there is none at present. A suffix `_refuted` marks a proved deviation of the code from an expectation.

## Model files

The head comment of each file, with its simplifications. Every definition in these files also carries a comment with the file and lines it models.

### AlgoModel.v

Model of the remaining registered algorithms of c3/libraries/algorithms.py:
adaptive_scan, tf_sgd and gcmaes.

Simplifications:
- the goal function is an oracle for value and gradient; what it logs is the
  subject of C56, here only the points at which it is called are recorded;
- the libraries are oracles: what keras' SGD does with a gradient is its
  documented update rule, the sampling library answers which point it wants
  next, the evolution strategy as in OptModel, scipy's L-BFGS returns a point and a value;
- printing and warnings are left out.

### AmpModel.v

Model of the drive strength estimate of the waveform generator (c3/generator/devices.py 1199-1229).

Simplifications: those of DevModel.v; the mean of no numbers (not a number) is `None`.

### BackendModel.v

Model of jobs on the Qiskit backend (c3/qiskit/c3_backend.py 78-98, 218-418, 496-589), as
state transformers: what `run` returns and what it leaves in the backend, also when it raises.

Simplifications: circuits are given as circuits, so that the job's configuration holds
exactly the options of the call (assemble, c3_backend.py 273-275); the option
initial_statevector is not given as None; unknown option names (AttributeError before
anything happens, c3_backend.py 397-401) and a backend without a model (C3QiskitError) are
left out; the returned Result object is the list of its experiment results.

### BasisModel.v

Model of `Model_basis_change`: a model in a basis given by the user
(c3/model.py 700-736, with 453-491 and 504-534).

### CalibModel.v

Model of the calibration optimiser (c3/optimizers/calibration.py).

The optimiser attributes, the log and the best-point file are those of OptModel.v.
Simplifications: an algorithm is the sequence of calls it makes; a KeyboardInterrupt only
shortens that sequence; the time stamps, the copy of the source of the evaluation function
and the loggers are left out; `log_setup` always finds a directory name that is not in use.

### ChainModel.v

Model of the signal-chain handling of `Generator` (c3/generator/generator.py).

Simplifications:
- a device is its declared number of inputs and outputs and its resolution
  (devices.py 33-50); its `process` method is a pure function of the channel
  and the input signals, given as a parameter `proc` of the Section;
- chains are ordered dictionaries with distinct keys.

### ChipModel.v

Model of chip components (c3/libraries/chip.py): potentials, tuning curves,
Hamiltonians and collapse operators.

### CmaOptModel.v

The options of cmaes and cma_pre_lbfgs and the artificial noise:
c3/libraries/algorithms.py 484-516, 541-557, 569-589.

Simplifications: option values are numbers (a bool is 0 or 1); numpy's random normal
numbers are a sequence that is used up; dictionaries are passed by reference in Python,
so the dictionary after the call is returned.

### Conf2Model.v

Configuration of devices, generators, chips, models and experiments
(c3/generator/devices.py, c3/generator/generator.py, c3/libraries/chip.py,
c3/libraries/tasks.py, c3/model.py, c3/experiment.py).

Simplifications, stated once here:
- descriptions and comments, which these `asdict`s do not write, are left out;
- the parameters of an object are Python values: quantities, or whatever the caller
  passed as an unknown keyword;
- a quantity passed as keyword counts as true (it has at least one entry);
- an argument of a wrong type is an error at once (Python would store it);
- the matrices a model builds from its components are not part of this file.

### ConfModel.v

Instruction configuration (c3/signal/gates.py 16-257, c3/signal/pulse.py).

Simplifications, stated once here:
- a configuration is a Python value `pyval` as hjson returns it; dicts have string keys;
- attributes that the code stores without looking at them (`ideal`, `targets`,
  `params`, `fixed_t_end`, options, unknown keys) are kept as Python values;
- the parameters of a component are quantities (Python would store anything);
- `_timings`, a cache, is left out.

### DevModel.v

Model of the signal-generation devices (c3/generator/devices.py) and the
convolutions they use (c3/utils/tf_utils.py).

Simplifications:
- real arithmetic for float64, complex numbers for complex128;
- signals are lists, one number per time point; the signal dictionaries with
  keys inphase / quadrature / ts and values / ts are records;
- parameters are numbers instead of dictionaries of Quantities;
- an element-wise operation on tensors of different length raises (ValueError)
  unless one has length 1, which is repeated (broadcasting);
- tf.linspace needs at least one point (ValueError otherwise);
- random noise is an argument (the numbers drawn).

### DmModel.v

Measures on density matrices: c3/utils/tf_utils.py 99-116, 311-322.

Simplifications: tensors are functions of two indices with the size as a separate
argument; floating point numbers are exact.  `tf.linalg.sqrtm` is a parameter.

### EnvModel.v

Model of the pulse envelopes (c3/libraries/envelopes.py, c3/signal/pulse.py).

Simplifications:
- real arithmetic for float64; 1e6, 0.001 and 0.999 are exact rationals;
- a shape that treats every time point on its own is a function of one time
  (`R -> R` for real shapes); shapes that look at the whole time vector are
  functions of the list of times;
- parameters are passed as numbers instead of a dictionary of Quantities;
- the autodiff gradient of EnvelopeDrag is `Derive` of the masked shape at the
  sample (the dependence of the mask on the grid spacing is not differentiated).

### EnvMoreModel.v

Model of the remaining envelopes (c3/libraries/envelopes.py 25-34, 71-101, 128-139, 227-250, 330-370) and of the
number type of what an envelope returns (c3/signal/pulse.py 113-141, c3/utils/tf_utils.py 209-210).

Real arithmetic for float64.  Times are a vector (for `pwc_shape_plateau` a column: one number per row).

### EstModel.v

Model of the counting estimators and the median of c3/libraries/estimators.py.

Numbers are exact reals.  `lgamma` is TensorFlow's log-gamma function, an
unknown function here; the theorems say what they need of it.  A product
of a count with ln(0) is zero when the count is zero, as in TFP; for a
positive count TFP returns minus infinity, which is not modelled (Coq's
ln 0 is 0), so the theorems ask for positive probabilities.

### ExpModel.v

Model of the computation of the gates of an experiment
(c3/experiment.py 93-107, 440-558; c3/libraries/propagation.py 258-340).

### ExpmModel.v

Model of the series exponentials (c3/libraries/propagation.py 630-685).

### Fid2Model.v

Model of the remaining fidelity functions (c3/libraries/fidelities.py 350-513,
794-820; c3/utils/tf_utils.py 219-221, 388-401, 428-436; c3/utils/qt_utils.py
178-193, 494-498).

Numbers are exact.  A matmul of incompatible shapes is `ValueError`.

### FidModel.v

Model of the fidelity functions and populations (c3/libraries/fidelities.py
86-350, 484-513, 754-790; c3/utils/tf_utils.py 204-215, 325-425;
c3/utils/qt_utils.py 10-40; c3/experiment.py 273-302, 603-632).

Numbers are exact reals.  tf.matmul of incompatible shapes raises; this is
`ValueError`.  Propagators are square matrices on the whole register, ideal
gates are square.

### FluxModel.v

Model of the flux dependence of `CShuntFluxQubit`: the cached search for the minimum of the
potential and what is computed from it (c3/libraries/chip.py 672-910).

### FoldModel.v

Model of the matrix-product reductions, batching and sequence evaluation
(c3/utils/tf_utils.py 120-195, c3/experiment.py 93-107 and 273-335,
c3/libraries/propagation.py 426-516 and 588-627).

The matrices are an arbitrary type `M` with a product; a TensorFlow tensor of
shape (N, n, n) is the list of its N matrices.

### FrameModel.v

Model of the dressed frame and of the assembly of the Hamiltonian
(c3/model.py 353-534, 580-589; c3/libraries/chip.py 60-70, 1155-1240).

### GateModel.v

Model of the tabulated gates, Cliffords and randomised benchmarking
sequences (c3/libraries/constants.py 23-121; c3/signal/gates.py 117-162;
c3/utils/qt_utils.py 448-553).

### GoalModel.v

Model of how an OptimalControl picks its fidelity function, goal function and algorithm
and of the calls it makes to them (c3/optimizers/optimalcontrol.py 50-145, 171-186, 200-291;
c3/optimizers/optimizer.py 60-65; c3/libraries/fidelities.py; c3/libraries/algorithms.py 17-26).

Python functions are modelled with the names of their parameters, since all calls of interest pass
keyword arguments.  Tracing by tf.function is the subject of TraceModel and is left out here; so
are log files and the optional initial point of the optimiser.

### HighpassModel.v

Model of the high pass filter (c3/generator/devices.py 792-904).

Simplifications:
- real arithmetic for float64; a division 0/0 inside the kernel is the NaN that the code replaces by 1,
  a division by a vanishing sum is the error `NaNResult`;
- parameters are numbers instead of Quantities (a Quantity is true), cutoff and rise time are positive;
- the documented parameter keep_mean is never read by the code and does not occur here.

### HilbertModel.v

Model of the product Hilbert space: labels, Kronecker products, embeddings,
excitation cut-off, projections and the frame rotation
(c3/model.py 141-224, 536-600; c3/utils/qt_utils.py 58-96, 178-249;
c3/utils/tf_utils.py 428-436).

### LearnGradModel.v

Model of the gradient of the goal of model learning (c3/optimizers/modellearning.py 362-446).

The simplifications of LearnRunModel apply.  tf.GradientTape is an oracle that is given the
recorded function of the watched parameters and the point; it may fail, as it does when the
goal does not depend on the parameters (t.gradient returns None, line 422).

### LearnModel.v

Model of data sampling (c3/libraries/sampling.py), of the learning and
validation selection (c3/optimizers/modellearning.py 155-179) and of the
estimators (c3/libraries/estimators.py).

Numbers are exact reals.  `batch_size` is a natural number; the quotient
total_size / batch_size is exact.

### LearnRunModel.v

Model of the goal function of model learning (c3/optimizers/modellearning.py 181-361)
and of the validation run behind it.

Simplifications: when a call raises, the run ends with that exception and the state it
leaves behind is not modelled; the log files, the callback figures of merit and the
attributes `learn_from` and `gateset_opt_map` (set at the start of every loop round)
are left out; numbers are exact reals.  The simulation itself is an oracle.

### LogModel.v

Model of c3/utils/utils.py lines 11-65: log_setup and replace_symlink, run by any
number of processes on one file system.

Simplifications:
- a path is the list of its components, innermost first, absolute and normalised;
  links are followed at the end of a path, not inside of it;
- the processes take turns at system calls; makedirs is one turn;
- nobody else changes the file system;
- the time stamp read and whether the operating system refuses the call for lack
  of permission come from outside with every turn.

### LoggerModel.v

Model of the TensorBoard logger and of the way an optimiser changes its log directory
(c3/optimizers/optimizer.py), and of the log reader (c3/utils/log_reader.py).

Simplifications:
- the summary file is the list of the entries written, oldest first; the text entry with all parameters is left out;
- numbers are reals, a goal may be NaN (`None`);
- the text printed for a number is an oracle of the value.

### MainModel.v

Model of the command line entry point (c3/main.py 26-127) and of the arguments it passes to the
optimisers (the constructors in c3/optimizers).

What the steps do is not modelled here but in the other files; a step is an entry in a
list of events, and an oracle decides, from the events so far, whether the step raises.  tf_setup, tf.device
and printing are left out.

### MiscModel.v

Model of utility code: flatten and eng_num (c3/utils/utils.py), the JSON
encoding (c3/c3objs.py), rotations and measurement sequences
(c3/utils/qt_utils.py).

### NoiseModel.v

Model of the devices with random noise (c3/generator/devices.py): the noisy local oscillator,
additive, constant and pink noise.  (LONoise defines no `process` but a method `proces` that nothing calls:
using it raises NotImplementedError.)

Simplifications:
- real arithmetic for float64;
- the random numbers are streams: `g k` is the k-th number of the standard normal source
  (normal(loc, scale) is loc + scale * g), `u k` the k-th of random(), `b k` the k-th of randint(2);
  functions take the number of draws made so far;
- signals are one-dimensional lists.

### OptModel.v

Model of the optimizer (c3/optimizers/optimizer.py, optimalcontrol.py) and of
the scanning and CMA-ES drivers (c3/libraries/algorithms.py).

Simplifications:
- the goal function after `set_parameters_scaled` is an oracle of the
  parameter map, evaluated eagerly (the code wraps goal_run in tf.function);
  NaN is `None`;
- the printed form `str(x)` of a vector is an oracle `show`;
- log files are lists of entries, the best-point file is its content;
- an optimisation algorithm is the sequence of calls it makes.

### PMapModel.v

Model of class `ParameterMap` (c3/parametermap.py).

Simplifications:
- the dictionary `_pars` maps identifiers to distinct Quantity objects, so
  the objects themselves are stored in the dictionary (no aliasing);
- values are flattened lists of reals, see QuantityModel.v;
- `model.update_model()` is only counted; the file written by
  `store_values` is its content (no text encoding).

### PrintModel.v

Model of how parameters are printed: c3/utils/utils.py 96-105 (num3str), c3/c3objs.py
222-232 (Quantity.__str__), c3/parametermap.py 173-177 and 458-499.

Simplifications: reals replace floats; the texts of Python's `f"{x}"` and `f"{x:.3}"`,
used for the units "pi" and "undefined" only, come from outside; values that are not
scalars are flat lists (as in QuantityModel).

### PropModel.v

Model of the time evolution code: right-hand sides, Runge-Kutta solvers and
their sampling of the Hamiltonian, superoperators, the dephasing channel
and the library Hamiltonians (c3/libraries/propagation.py,
c3/libraries/hamiltonians.py, c3/model.py 597-697, c3/utils/tf_utils.py
240-305 and 521-567).

Floating point numbers are exact reals, complex numbers are pairs of reals;
`dt` is a real number (the code casts it to a complex one).

### ProviderModel.v

The provider of the Qiskit backends: c3/qiskit/c3_provider.py 8-95,
c3/qiskit/c3_options.py 22-36 and c3/qiskit/c3_backend.py 71-81.

Simplifications: objects are numbered in the order of their creation; of a backend
only the experiment it simulates is kept; the list SIMULATORS is a parameter, so that
further backends can be listed.

### QGateModel.v

Model of the Qiskit gate library (c3/qiskit/c3_gates.py 12-115) and of `get_perfect_gates`
(c3/experiment.py 409-438).

Qiskit is not part of the repository: the matrices of its rotation gates, and the rule that the
first qubit of a gate and of a register is the least significant one, are those of its
documentation (quoted at c3/qiskit/c3_backend_utils.py 88-99).

### QiskitModel.v

Model of QASM style evaluation (c3/experiment.py 304-353,
c3/utils/qt_utils.py 252-334) and of the Qiskit backend
(c3/qiskit/c3_backend.py, c3/qiskit/c3_backend_utils.py).

### QuantityModel.v

Model of class `Quantity` (c3/c3objs.py 55-350).

Simplifications, stated once here:
- floating point numbers are exact reals;
- a numpy array value is represented by its flattened list of entries
  (row-major), so `shape` becomes the number of entries;
- limits are scalars (the code also tolerates arrays of limits).

### QuickModel.v

Model of the quick setup (c3/experiment.py 124-212 and c3/signal/gates.py 372-403).

Files are not read: `read_model` and `read_generator` say what is at a path.  A model is reduced to the
names, drive lines and frequencies of its subsystems.  Instructions have no options, and t_start is 0.

### RBModel.v

Model of randomised benchmarking (c3/libraries/fidelities.py 514-790): the
survival probabilities, the repeated fit and the errors derived from it.

Numbers are exact reals.  The random choices of Cliffords and scipy's
curve_fit are unknown functions; curve_fit may raise.

### RegModel.v

Model of the registration of parameters: how a ParameterMap collects the Quantity
objects of the model, the devices and the gates under identifiers
(c3/parametermap.py 24-71, 132-146, 225-265; c3/signal/gates.py 219-280).

Quantities are objects shared between their owner and the map, so they live in a heap
and owners hold addresses.

### Rk4Model.v

Model of the propagation methods other than `pwc`: `get_hs_of_t_ts`, `rk4_unitary` and
`tf_propagation`, and of how an experiment calls the registered methods
(c3/libraries/propagation.py 104-243, 518-548; c3/experiment.py 461-479).

Numbers are exact.  `rk4_unitary` is modelled for models without excitation cut-off
(`max_excitations` is 0).

### RobustModel.v

Model of the robust optimiser, c3/optimizers/optimalcontrol_robust.py.

The store is the `ParameterMap` model of PMapModel.v.  The simulation
(compute_propagators and the goal function, optimalcontrol_robust.py 100-112, and the gradient
tape, optimalcontrol_robust.py 43-46) is the oracle `fid`: it maps the parameter store and the
evaluation number to a goal and its gradient, or raises.  `self.exp.pmap` and
`self.pmap` are one object (optimizer.py set_exp / __init__).  That cached
Hamiltonians follow the store is C11's subject, not modelled here.

### SensModel.v

Model of the sensitivity analysis (c3/optimizers/sensitivity.py 96-127) on top of the
goal function of model learning (LearnRunModel) and of the sweep (OptModel).

Simplifications: as in LearnRunModel a call that raises ends the run and the state it
leaves is not modelled; the algorithm is `sweep` without a wrapper (algorithms.py
100-159); a KeyboardInterrupt does not occur; the log files are the lists of what was
written into them, one per directory.

### SettingsModel.v

Model of the settings of `Model` and of the operators it stores for them
(c3/model.py 43-57, 311-336, 353-366, 374-384, 417-451, 493-534).

Simplifications:
- the parameters of all components are one value `P`; what the components make of it
  (their Hamiltonians and collapse operators) are arbitrary functions of it;
- there is no excitation cut-off (C137) and no signal (C95);
- the conversion of the initial state at the end of `set_lindbladian` is C98.

### SparseModel.v

The excitation limit of a Model as an attribute and the Hamiltonians read
with it.  `set_max_excitations` writes two attributes, the limit and the
cutter, and only writes the cutter for a limit other than zero.

### StoreModel.v

Model of storing propagators during an optimisation: c3/experiment.py lines 526-531 and
560-602, and its callers c3/optimizers/optimizer.py 173-199, optimalcontrol.py 163-227.

Simplifications:
- the file system is a set of directories (paths ending in a slash) and a map from paths
  to contents; nobody else changes it, and there are no links and no missing permissions;
- a number is printed by Python: the text of a goal is part of the input;
- matrices are opaque; a tensor is either a number array or belongs to a graph being traced;
- of the optimiser only the stored unitaries and the lines of the log are kept; the
  best_point file is outside of the directory of the unitaries (see C50).

### TaskModel.v

Model of the state preparation and measurement tasks
(c3/libraries/tasks.py 46-179) and of the readout processing
(c3/experiment.py 355-405).  Numbers are exact reals.

### TimingModel.v

Model of the component timing of an Instruction (c3/signal/gates.py).

Simplifications:
- a component carries what get_timings reads: whether it is an Envelope (then
  its t_final) and its options delay, trigger_comp and t_final_cut;
- `comps` and `_options` have the same keys (add_component, gates.py 220-257,
  writes both), so they are one dictionary;
- recursion and the loop of auto_adjust_t_end take fuel; running out of it
  stands for unbounded recursion (a RecursionError) or a loop that never ends;
- +inf / -inf of an instruction without components are `None`.

### TomoModel.v

Model of the tomography sequences (c3/utils/qt_utils.py 337-361).

### TraceModel.v

Model of the compiled goal function of OptimalControl (c3/optimizers/optimalcontrol.py
93-116, 160-290; c3/optimizers/optimizer.py 32-58, 173-313).

`goal_run` is decorated with tf.function.  The first call with a vector of a given
length runs the Python code once, with a symbolic vector, and keeps the graph of
tensor operations; what the code read on the way (the fidelity function, the
experiment, the evaluation number and every parameter that is not optimised) is part
of the graph as a constant.  Every later call with a vector of that length only
evaluates the graph: no Python statement runs, no attribute changes.

After tracing, the optimised quantities hold symbolic tensors.  The model keeps the
values of the traced call; the code overwrites them before it reads any of them
(optimizer.py 303, optimalcontrol.py 191).

### TrajModel.v

Model of the initial state of simulations (c3/model.py 63-107, 323-335), of the
choice of the propagation method (c3/experiment.py 59-107, 440-477) and of the
trajectories of gate sequences (c3/experiment.py 634-728).  Numbers are exact.

### TrottModel.v

The step with a separate drift: c3/libraries/propagation.py 443-457.

Simplifications: exact numbers; one time slice, so that `cflds_t * hks` multiplies each
control Hamiltonian with its field.

## What is modelled and what is not

Computed from the line citations in the model files. "Modelled" means that a model definition cites the body of the function. Decorators that only fill a registry, `__str__` and `__repr__`, file handling and printing are left out throughout.

| file in /repo/c3 | modelled functions | not modelled |
|---|---|---|
| c3objs.py | `C3obj.__init__`, `C3obj.__str__`, `C3obj.asdict`, `Quantity.__init__`, `Quantity.asdict`, `Quantity.tolist`, `Quantity.__add__`, `Quantity.__radd__`, `Quantity.__sub__`, `Quantity.__rsub__`, `Quantity.__mul__`, `Quantity.__rmul__`, `Quantity.__pow__`, `Quantity.__rpow__`, `Quantity.__truediv__`, `Quantity.__rtruediv__`, `Quantity.__mod__`, `Quantity.__lt__`, `Quantity.__le__`, `Quantity.__eq__`, `Quantity.__ne__`, `Quantity.__ge__`, `Quantity.__gt__`, `Quantity.__array__`, `Quantity.__len__`, `Quantity.__getitem__`, `Quantity.__float__`, `Quantity.__repr__`, `Quantity.__str__`, `Quantity.subtract`, `Quantity.add`, `Quantity.numpy`, `Quantity.get_value`, `Quantity.get_other_value`, `Quantity.set_value`, `Quantity._set_value`, `Quantity._set_value_extend`, `Quantity.get_opt_value`, `Quantity.set_opt_value`, `Quantity.get_limits`, `Quantity._set_limits`, `jsonify_list`, `hjson_encode`, `hjson_decode` | - |
| experiment.py | `Experiment.__init__`, `Experiment.set_prop_method`, `Experiment._compute_folding_stack`, `Experiment.load_quick_setup`, `Experiment.quick_setup`, `Experiment.read_config`, `Experiment.from_dict`, `Experiment.write_config`, `Experiment.asdict`, `Experiment.evaluate_legacy`, `Experiment.evaluate_qasm`, `Experiment.lookup_gate`, `Experiment.get_VZ`, `Experiment.process`, `Experiment.get_perfect_gates`, `Experiment.compute_propagators`, `Experiment.set_opt_gates`, `Experiment.set_opt_gates_seq`, `Experiment.set_enable_store_unitaries`, `Experiment.store_Udict`, `Experiment.populations`, `Experiment.expect_oper`, `Experiment.compute_states`, `Experiment.compute_final_state` | `Experiment.enable_qasm`, `Experiment.set_created_by`, `Experiment.__str__` |
| generator/devices.py | `Device.__init__`, `Device.write_config`, `Device.asdict`, `Device.__str__`, `Device.calc_slice_num`, `Device.create_ts`, `Readout.__init__`, `Readout.readout`, `VoltsToHertz.__init__`, `VoltsToHertz.process`, `Crosstalk.__init__`, `Crosstalk.process`, `DigitalToAnalog.process`, `CouplingTuning.get_factor`, `CouplingTuning.get_coup`, `CouplingTuning.process`, `FluxTuning.__init__`, `FluxTuning.get_factor`, `FluxTuning.get_freq`, `FluxTuning.process`, `FluxTuningLinear.frequency`, `Response.process`, `ResponseFFT.process`, `StepFuncFilter.process`, `ExponentialIIR.step_response_function`, `HighpassExponential.step_response_function`, `SkinEffectResponse.step_response_function`, `HighpassFilter.__init__`, `HighpassFilter.convolve`, `HighpassFilter.process`, `Mixer.process`, `Additive_Noise.__init__`, `Additive_Noise.get_noise`, `Additive_Noise.process`, `DC_Noise.get_noise`, `Pink_Noise.get_noise`, `DC_Offset.process`, `LO.__init__`, `LO.process`, `AWG.create_IQ`, `AWG.get_average_amp`, `AWG.get_I`, `AWG.get_Q`, `AWG.log_shapes` | `dev_reg_deco`, `Device.process`, `DigitalToAnalog.__init__`, `Filter.__init__`, `Filter.process`, `CouplingTuning.__init__`, `FluxTuningLinear.__init__`, `Response.__init__`, `ResponseFFT.__init__`, `StepFuncFilter.__init__`, `StepFuncFilter.step_response_function`, `Mixer.__init__`, `LONoise.__init__`, `LONoise.proces`, `Pink_Noise.__init__`, `DC_Offset.__init__`, `AWG.__init__` |
| generator/generator.py | `Generator.__init__`, `Generator.set_chains`, `Generator.__check_signal_chains`, `Generator.__topological_ordering`, `Generator.read_config`, `Generator.fromdict`, `Generator.write_config`, `Generator.asdict`, `Generator.generate_signals` | `Generator.__str__` |
| libraries/algorithms.py | `algo_reg_deco`, `grid2D`, `sweep`, `adaptive_scan`, `tf_sgd`, `cmaes`, `cma_pre_lbfgs`, `gcmaes` | `single_eval`, `tf_adam`, `tf_rmsprop`, `tf_adadelta`, `lbfgs`, `lbfgs_grad_free`, `oneplusone` |
| libraries/chip.py | `PhysicalComponent.__init__`, `PhysicalComponent.set_subspace_index`, `PhysicalComponent.get_transformed_hamiltonians`, `PhysicalComponent.asdict`, `Qubit.__init__`, `Qubit.init_Hs`, `Qubit.get_Hamiltonian`, `Qubit.init_Ls`, `Qubit.get_Lindbladian`, `Resonator.init_Hs`, `Resonator.init_Ls`, `Resonator.get_Hamiltonian`, `Resonator.get_Lindbladian`, `Transmon.__init__`, `Transmon.get_factor`, `Transmon.get_freq`, `Transmon.init_Hs`, `Transmon.init_Ls`, `Transmon.get_Hamiltonian`, `Transmon.get_Lindbladian`, `TransmonExpanded.get_Hs`, `TransmonExpanded.init_Hs`, `TransmonExpanded.get_prefactors`, `TransmonExpanded.get_Hamiltonian`, `CShuntFluxQubitCos.__init__`, `CShuntFluxQubitCos.get_phase_variable`, `CShuntFluxQubitCos.get_n_variable`, `CShuntFluxQubitCos.init_exponentiated_vars`, `CShuntFluxQubitCos.get_freq`, `CShuntFluxQubitCos.init_Hs`, `CShuntFluxQubitCos.cosm`, `CShuntFluxQubitCos.get_Hamiltonian`, `CShuntFluxQubit.__init__`, `CShuntFluxQubit.get_potential_function`, `CShuntFluxQubit.get_minimum_phi_var`, `CShuntFluxQubit.get_frequency`, `CShuntFluxQubit.get_anharmonicity`, `CShuntFluxQubit.get_third_order_prefactor`, `CShuntFluxQubit.init_Hs`, `CShuntFluxQubit.get_Hamiltonian`, `Fluxonium.__init__`, `Fluxonium.get_potential_function`, `SNAIL.__init__`, `SNAIL.init_Hs`, `SNAIL.get_Hamiltonian`, `LineComponent.__init__`, `LineComponent.asdict`, `Coupling.__init__`, `Coupling.init_Hs`, `Coupling.get_Hamiltonian`, `Drive.init_Hs`, `Drive.get_Hamiltonian`, `Coupling_Drive.init_Hs` | `dev_reg_deco`, `PhysicalComponent.get_Hamiltonian`, `Transmon.get_anhar`, `TransmonExpanded.energies_from_frequencies` |
| libraries/envelopes.py | `env_reg_deco`, `no_drive`, `pwc`, `pwc_shape`, `pwc_shape_plateau`, `pwc_symmetric`, `delta_pulse`, `fourier_sin`, `fourier_cos`, `rect`, `trapezoid`, `flattop_risefall`, `flattop`, `flattop_cut`, `flattop_cut_center`, `slepian_fourier`, `flattop_risefall_1ns`, `gaussian_sigma`, `gaussian`, `cosine`, `cosine_flattop`, `gaussian_nonorm`, `gaussian_der_nonorm`, `gaussian_der`, `drag_sigma`, `drag`, `drag_der`, `flattop_variant` | - |
| libraries/estimators.py | `mean_dist`, `median_dist`, `rms_dist`, `mean_sim_stds_dist`, `rms_sim_stds_dist`, `mean_exp_stds_dist`, `rms_exp_stds_dist`, `std_of_diffs`, `neg_loglkh_binom`, `neg_loglkh_binom_norm`, `neg_loglkh_gauss`, `neg_loglkh_gauss_norm`, `neg_loglkh_gauss_norm_sum`, `g_LL_prime`, `dv_g_LL_prime`, `g_LL_prime_combined`, `neg_loglkh_multinom`, `neg_loglkh_multinom_norm` | `estimator_reg_deco` |
| libraries/fidelities.py | `fid_reg_deco`, `state_transfer_infid_set`, `state_transfer_infid`, `unitary_infid`, `unitary_infid_set`, `lindbladian_unitary_infid`, `lindbladian_unitary_infid_set`, `average_infid`, `average_infid_set`, `average_infid_seq`, `lindbladian_average_infid`, `lindbladian_average_infid_set`, `epc_analytical`, `lindbladian_epc_analytical`, `populations`, `population`, `lindbladian_population`, `RB`, `lindbladian_RB_left`, `lindbladian_RB_right`, `leakage_RB`, `orbit_infid`, `state_transfer_from_states`, `calculate_state_overlap` | `state_deco`, `unitary_deco`, `set_deco`, `open_system_deco` |
| libraries/hamiltonians.py | `hamiltonian_reg_deco`, `resonator`, `duffing`, `third_order`, `int_XX`, `int_YY`, `x_drive`, `y_drive`, `z_drive` | - |
| libraries/propagation.py | `step_vonNeumann_psi`, `unitary_deco`, `state_deco`, `gen_dus_rk4`, `gen_du_rk4`, `rk4_step`, `get_hs_of_t_ts`, `_get_hs_of_t_ts_controlled`, `_get_hs_of_t_ts`, `sum_h0_hks`, `rk4_unitary`, `gen_u_rk4`, `pwc`, `tf_dU_of_t`, `tf_dU_of_t_lind`, `tf_propagation_vectorized`, `pwc_trott_drift`, `tf_batch_propagate`, `tf_propagation`, `tf_propagation_lind`, `evaluate_sequences`, `tf_expm`, `tf_expm_dynamic`, `ode_solver`, `ode_solver_final_state`, `rk4`, `rk38`, `rk5`, `tsit5`, `lindblad`, `schrodinger`, `von_neumann` | `solver_deco`, `step_deco` |
| libraries/sampling.py | `all`, `from_start`, `from_end`, `even`, `random_sample`, `high_std`, `even_fid` | `sampling_reg_deco` |
| libraries/tasks.py | `Task.__init__`, `InitialiseGround.__init__`, `InitialiseGround.initialise`, `ConfusionMatrix.__init__`, `ConfusionMatrix.confuse`, `MeasurementRescale.__init__`, `MeasurementRescale.rescale` | `task_deco` |
| main.py | `run_cfg` | - |
| model.py | `Model.__init__`, `Model.set_init_state`, `Model.update_init_state`, `Model.get_ground_state`, `Model.get_init_state`, `Model.__check_drive_connect`, `Model.set_components`, `Model.set_tasks`, `Model.__create_labels`, `Model.__create_annihilators`, `Model.__create_matrix_representations`, `Model.set_max_excitations`, `Model.cut_excitations`, `Model.blowup_excitations`, `Model.read_config`, `Model.fromdict`, `Model.write_config`, `Model.asdict`, `Model.set_dressed`, `Model.set_lindbladian`, `Model.set_FR`, `Model.set_dephasing_strength`, `Model.list_parameters`, `Model.get_Hamiltonians`, `Model.get_sparse_Hamiltonians`, `Model.get_Hamiltonian`, `Model.get_sparse_Hamiltonian`, `Model.get_Lindbladians`, `Model.update_model`, `Model.update_Hamiltonians`, `Model.update_Lindbladians`, `Model.reorder_frame`, `Model.update_drift_eigen`, `Model.update_dressed`, `Model.get_Frame_Rotation`, `Model.get_qubit_freqs`, `Model.get_state_index`, `Model.get_state_indeces`, `Model.get_dephasing_channel`, `Model.Hs_of_t`, `Model.calculate_sum_Hs`, `Model_basis_change.__init__`, `Model_basis_change.update_drift_eigen` | `Model.__str__` |
| optimizers/calibration.py | `Calibration.__init__`, `Calibration.log_setup`, `Calibration.optimize_controls`, `Calibration.goal_run`, `Calibration.log_pickle` | `Calibration.set_eval_func` |
| optimizers/modellearning.py | `ModelLearning.__init__`, `ModelLearning.read_data`, `ModelLearning.select_from_data`, `ModelLearning.learn_model`, `ModelLearning.confirm`, `ModelLearning._one_par_sim_vals`, `ModelLearning._log_one_dataset`, `ModelLearning.goal_run`, `ModelLearning.goal_run_with_grad` | `ModelLearning.log_setup` |
| optimizers/optimalcontrol.py | `OptimalControl.__init__`, `OptimalControl.set_goal_function`, `OptimalControl.set_fid_func`, `OptimalControl.set_callback_fids`, `OptimalControl.load_model_parameters`, `OptimalControl.optimize_controls`, `OptimalControl.goal_run`, `OptimalControl.goal_run_ode`, `OptimalControl.goal_run_ode_only_final` | `OptimalControl.log_setup` |
| optimizers/optimalcontrol_robust.py | `OptimalControlRobust.noise_instance`, `OptimalControlRobust.goal_run_with_grad`, `OptimalControlRobust.goal_run` | `OptimalControlRobust.__init__`, `OptimalControlRobust.start_log` |
| optimizers/optimizer.py | `Optimizer.__init__`, `Optimizer.set_algorithm`, `Optimizer.replace_logdir`, `Optimizer.log_best_unitary`, `Optimizer.log_parameters`, `Optimizer.goal_run`, `Optimizer.goal_run_with_grad`, `Optimizer.lookup_gradient`, `Optimizer.fct_to_min`, `Optimizer.fct_to_min_autograd`, `BaseLogger.__init__`, `BaseLogger.start_log`, `BaseLogger.log_parameters`, `BaseLogger.end_log`, `TensorBoardLogger.__init__`, `TensorBoardLogger.write_params`, `TensorBoardLogger.set_logdir`, `TensorBoardLogger.start_log`, `TensorBoardLogger.log_parameters` | `Optimizer.set_exp`, `Optimizer.set_created_by`, `Optimizer.load_best`, `Optimizer.start_log`, `Optimizer.end_log` |
| optimizers/sensitivity.py | `Sensitivity.__init__`, `Sensitivity.sensitivity` | - |
| parametermap.py | `ParameterMap.__init__`, `ParameterMap.__initialize_parameters`, `ParameterMap.update_parameters`, `ParameterMap.load_values`, `ParameterMap.store_values`, `ParameterMap.read_config`, `ParameterMap.fromdict`, `ParameterMap.write_config`, `ParameterMap.asdict`, `ParameterMap.get_full_params`, `ParameterMap.get_not_opt_params`, `ParameterMap.get_opt_units`, `ParameterMap.get_opt_limits`, `ParameterMap.check_limits`, `ParameterMap.get_parameter`, `ParameterMap.get_parameters`, `ParameterMap.get_parameter_dict`, `ParameterMap.set_parameters`, `ParameterMap.get_parameters_scaled`, `ParameterMap._set_parameters_scaled_ctrls`, `ParameterMap._set_parameters_scaled_model`, `ParameterMap.get_key_from_scaled_index`, `ParameterMap.set_opt_map`, `ParameterMap.set_update_model`, `ParameterMap.get_opt_map`, `ParameterMap.str_parameters`, `ParameterMap.print_parameters` | `ParameterMap.__str__` |
| qiskit/c3_backend.py | `C3QasmSimulator.set_c3_experiment`, `C3QasmSimulator._setup_c3_experiment`, `C3QasmSimulator.get_labels`, `C3QasmSimulator.locate_measurements`, `C3QasmSimulator.sanitize_instructions`, `C3QasmSimulator.generate_shot_readout`, `C3QasmSimulator.run`, `C3QasmSimulator._run_job`, `C3QasmSimulator.run_experiment`, `C3QasmSimulator._validate`, `C3QasmSimulator._validate_initial_statevector`, `C3QasmSimulator._set_options`, `C3QasmPhysicsSimulator.__init__`, `C3QasmPhysicsSimulator._default_options`, `C3QasmPhysicsSimulator.run_experiment` | `C3QasmSimulator._default_options`, `C3QasmSimulator.set_device_config`, `C3QasmSimulator.disable_flip_labels`, `C3QasmPerfectSimulator.__init__` |
| qiskit/c3_backend_utils.py | `get_init_ground_state`, `flip_labels` | `make_gate_str` |
| qiskit/c3_exceptions.py | - | `C3QiskitError.__init__`, `C3QiskitError.__str__` |
| qiskit/c3_gates.py | `RX90pGate.__init__`, `RX90mGate.__init__`, `RXpGate.__init__`, `RY90pGate.__init__`, `RY90mGate.__init__`, `RYpGate.__init__`, `RZ90pGate.__init__`, `RZ90mGate.__init__`, `RZpGate.__init__`, `CRXpGate.__init__`, `CRGate.__init__`, `CR90Gate.__init__` | `SetParamsGate.__init__`, `SetParamsGate.validate_parameter` |
| qiskit/c3_job.py | - | `C3Job.__init__`, `C3Job.submit`, `C3Job.result`, `C3Job.status` |
| qiskit/c3_options.py | `C3Options.to_dict` | - |
| qiskit/c3_provider.py | `C3Provider.__init__`, `C3Provider.backends`, `C3Provider._verify_backends`, `C3Provider._get_backend_instance` | `C3Provider.__str__` |
| signal/gates.py | `_from_dict_get_name_back_compat`, `Instruction.__init__`, `Instruction.name`, `Instruction.name`, `Instruction.as_openqasm`, `Instruction.set_name`, `Instruction.set_ideal`, `Instruction.get_ideal_gate`, `Instruction.get_key`, `Instruction.asdict`, `Instruction.from_dict`, `Instruction.__repr__`, `Instruction.__str__`, `Instruction.add_component`, `Instruction.get_optimizable_parameters`, `Instruction.get_timings`, `Instruction.get_full_gate_length`, `Instruction.auto_adjust_t_end`, `Instruction.get_awg_signal`, `Instruction.quick_setup` | - |
| signal/pulse.py | `comp_reg_deco`, `Envelope.__init__`, `Envelope.asdict`, `Envelope.set_use_t_before`, `Envelope.compute_mask`, `Envelope._get_shape_values_before`, `Envelope._get_shape_values_just`, `EnvelopeDrag.__init__`, `EnvelopeDrag.set_use_t_before`, `EnvelopeDrag.get_shape_values`, `EnvelopeNetZero.__init__`, `EnvelopeNetZero.set_use_t_before`, `EnvelopeNetZero.get_shape_values`, `Carrier.__init__` | `Envelope.write_config`, `Envelope.__str__`, `Envelope.__repr__`, `Carrier.write_config`, `Carrier.__repr__` |
| utils/log_reader.py | `show_table` | - |
| utils/qt_utils.py | `pauli_basis`, `np_kron_n`, `hilbert_space_kron`, `rotation`, `basis`, `xy_basis`, `projector`, `kron_ids`, `get_basis_matrices`, `insert_mat_kron`, `pad_matrix`, `perfect_parametric_gate`, `perfect_single_q_parametric_gate`, `two_qubit_gate_tomography`, `T1_sequence`, `ramsey_sequence`, `ramsey_echo_sequence`, `single_length_RB`, `inverseC`, `perfect_cliffords` | `expand_dims` |
| utils/tf_utils.py | `tf_measure_operator`, `tf_matmul_left`, `tf_matmul_right`, `tf_matmul_n`, `_tf_matmul_n_even`, `_tf_matmul_n_odd`, `tf_abs_squared`, `tf_complexify`, `tf_abs`, `tf_ave`, `Id_like`, `tf_kron`, `tf_spre`, `tf_spost`, `tf_super`, `tf_state_to_dm`, `tf_dm_to_vec`, `tf_vec_to_dm`, `tf_dmdm_fid`, `tf_dmket_fid`, `tf_ketket_fid`, `tf_unitary_overlap`, `tf_superoper_unitary_overlap`, `tf_average_fidelity`, `tf_superoper_average_fidelity`, `tf_super_to_fid`, `tf_choi_to_chi`, `super_to_choi`, `tf_project_to_comp`, `tf_convolve`, `tf_convolve_legacy`, `interpolate_signal`, `commutator`, `anticommutator` | `tf_setup`, `tf_log_level_info`, `get_tf_log_level`, `set_tf_log_level`, `tf_list_avail_devices`, `tf_limit_gpu_memory`, `tf_log10`, `tf_diff` |
| utils/utils.py | `log_setup`, `replace_symlink`, `eng_num`, `num3str`, `flatten` | `ask_yn`, `deprecated` |

Reasons for what is left out:

- registry decorators, string conversions, plotting, GPU and log-level set-up, the Qiskit job class (it hands back the result it was given): no result a property could be stated about, or glue around libraries that are not part of the code;
- wrappers that hand over to external optimisers (scipy, cma, adaptive): the algorithm is not part of the code; what the code does around it, `fct_to_min`, the options and the logs, is modelled (OptModel, AlgoModel);
- the pickled logs of calibration: file handling.

## Properties

Per property: the claim, the model it is stated about, how it is proved and the theorems. Names ending in `_refuted` prove that an expectation a user may have is false in the code; they are part of the claim, which states the deviation in parentheses. Beside the theorems of a property an `Example CNN_example` shows that a concrete, non-trivial case meets the hypotheses.

### C01 Quantity set/read round trip

Setting a Quantity to a physical value inside its limits succeeds, and reading it back (numpy(), and get_value() up to the pi/2pi unit prefactor) returns exactly that value, entry by entry.

- Quantified over: all limits min<max, all unit prefactors, all array lengths, all in-range values
- Code: c3/c3objs.py: Quantity._set_value, Quantity.numpy, Quantity.get_value
- Model: `QuantityModel.v`
- Proof: field arithmetic on offset/scale/prefactor, list induction over the entries
- Status: proved
- Theorems: `C01_set_value_roundtrip` (QuantityProps.v)

### C02 Quantity refuses out-of-range values without changing

set_value raises exactly when some entry lies outside the limits by more than the closeness tolerance; when it raises the stored value and limits are unchanged; when it succeeds the value read back is within the limits up to that tolerance.

- Quantified over: all values, limits, prefactors, array lengths
- Code: c3/c3objs.py: Quantity._set_value, QuantityOOBException
- Model: `QuantityModel.v`
- Proof: the closeness test of the setter characterised for one entry, then Forall/Exists over the list; induction over call histories
- Status: proved
- Theorems: `C02_raises_exactly_out_of_limits` (QuantityProps.v), `C02_raise_leaves_unchanged` (QuantityProps.v), `C02_history_keeps_limits` (QuantityProps.v)

### C03 Optimizer-scale setter always lands inside the limits

set_opt_value accepts every real number, leaves the quantity inside its limits, and is the identity on [-1,1]; outside it is the triangle-wave fold (period 4, reflected at the ends).

- Quantified over: all real optimizer values, all array lengths, all quantities
- Code: c3/c3objs.py: Quantity.set_opt_value, Quantity.get_opt_value
- Model: `QuantityModel.v`
- Proof: arccos/cos identities give the triangle wave; uniqueness of the fold by periodicity
- Status: proved
- Theorems: `C03_set_opt_value_in_limits` (QuantityProps.v), `C03_fold_unique` (QuantityProps.v), `C03_identity_inside` (QuantityProps.v)

### C04 Quantity dictionary round trip

Rebuilding a Quantity from its asdict() reproduces value, limits, unit and symbol.

- Quantified over: all quantities with min<max whose value is in range
- Code: c3/c3objs.py: Quantity.asdict, Quantity.__init__
- Model: `QuantityModel.v`
- Proof: composition of asdict with the constructor, well-formedness of every constructed quantity
- Status: proved
- Theorems: `C04_dict_roundtrip` (QuantityProps.v)

### C05 Extending setter never fails and only widens

set_value(..., extend_bounds=True) never raises, the new limits contain both the old limits and the new value, and the new value is read back exactly.

- Quantified over: all values of either sign, all limits, prefactors, array lengths
- Code: c3/c3objs.py: Quantity._set_value_extend
- Model: `QuantityModel.v`
- Proof: case split on which limit is widened, monotonicity of min/max
- Status: proved
- Theorems: `C05_extend_never_fails` (QuantityProps.v)

### C06 Quantity arithmetic

For a quantity whose unit carries no pi prefactor q+x, x+q, q-x, x-q, q*x, q/x return a new quantity whose value is the arithmetic result, leaving q unchanged. (For pi/2pi units the prefactor is applied twice: refuted.)

- Quantified over: all quantities, all operands
- Code: c3/c3objs.py: Quantity.__add__, __radd__, __sub__, __rsub__, __mul__, __truediv__, add, subtract
- Model: `QuantityModel.v`
- Proof: each operator unfolded against the constructor; the pi-unit deviation as a refuted theorem
- Status: proved
- Theorems: `C06_arithmetic` (QuantityProps.v), `C06_inplace_add` (QuantityProps.v), `C06_arithmetic_pi_units_refuted` (QuantityProps.v)

### C07 Default limits admit the value

Constructing a Quantity without limits never raises and the value is strictly inside the default limits unless entries coincide with the limit.

- Quantified over: all arrays of reals of any sign, including zeros and mixed signs
- Code: c3/c3objs.py: Quantity.__init__
- Model: `QuantityModel.v`
- Proof: case split on the sign of the entries for the default limits
- Status: proved
- Theorems: `C07_default_limits_admit_value` (QuantityProps.v), `C07_explicit_limits_kept` (QuantityProps.v), `C07_swapped_limits_accepted_refuted` (QuantityProps.v)

### C08 Parameter vector set/get round trip

After set_parameters(values, opt_map) succeeds, get_parameters(opt_map) reads back exactly the values given, and every identifier of a group carries the value of its group.

- Quantified over: all parameter stores, all opt_maps with distinct identifiers, all in-range values
- Code: c3/parametermap.py: ParameterMap.set_parameters, get_parameters
- Model: `PMapModel.v`
- Proof: induction over the opt_map with the invariant "processed groups carry their values"
- Status: proved
- Theorems: `C08_set_then_get` (PMapProps.v), `C08_accepts_exactly_fitting_vectors` (PMapProps.v)

### C09 Setting parameters touches nothing else

set_parameters and set_parameters_scaled leave every parameter not named in the opt_map exactly as it was.

- Quantified over: all stores, opt_maps, values, including failing calls
- Code: c3/parametermap.py: set_parameters, _set_parameters_scaled_ctrls
- Model: `PMapModel.v`
- Proof: frame lemma for dset along the loop
- Status: proved
- Theorems: `C09_touches_nothing_else` (PMapProps.v), `C09_scaled_touches_nothing_else` (PMapProps.v)

### C10 Failing update is a prefix update

If set_parameters raises on an out-of-bounds value, exactly the identifiers that precede the failing one in opt_map order carry the new values, all later ones are unchanged, and the model is not updated (hence the update is not atomic: refuted).

- Quantified over: all stores, opt_maps and value lists
- Code: c3/parametermap.py: set_parameters, ParameterMapOOBUpdateException
- Model: `PMapModel.v`
- Proof: induction locating the first failing identifier; non-atomicity as refutation
- Status: proved
- Theorems: `C10_failing_update_is_prefix` (PMapProps.v), `C10_set_parameters_atomic_refuted` (PMapProps.v)

### C11 Optimizer vector round trip

get_parameters_scaled after set_parameters_scaled(x) returns x for every x with entries in [-1,1] (the folded x otherwise), and writing back what was read changes nothing; the vector length is the sum of the lengths of the group leaders.

- Quantified over: all stores with scalar/array parameters, all opt_maps with distinct identifiers, all vectors
- Code: c3/parametermap.py: get_parameters_scaled, _set_parameters_scaled_ctrls
- Model: `PMapModel.v`
- Proof: C03 per entry plus splitting of the optimizer vector by group lengths
- Status: proved
- Theorems: `C11_scaled_set_then_get` (PMapProps.v), `C11_scaled_get_then_set` (PMapProps.v), `C11_explicit_map_with_model_parameters_refuted` (PMapProps.v)

### C12 Slot-to-name lookup

get_key_from_scaled_index(i) names the group leader whose slice of the optimizer vector contains position i, and the empty string exactly when i is past the end.

- Quantified over: all opt_maps, lengths and indices
- Code: c3/parametermap.py: get_key_from_scaled_index
- Model: `PMapModel.v`
- Proof: prefix sums of group lengths
- Status: proved
- Theorems: `C12_index_to_name` (PMapProps.v), `C12_name_owns_the_slot` (PMapProps.v), `C12_index_beyond_the_end` (PMapProps.v)

### C13 Model refresh when and only when needed

A successful set_parameters refreshes the model exactly once if some identifier in the map is a model parameter and not at all otherwise.

- Quantified over: all stores and opt_maps
- Code: c3/parametermap.py: set_parameters, set_opt_map, set_update_model
- Model: `PMapModel.v`
- Proof: the update counter in the model; the loop flag is the disjunction over identifiers
- Status: proved
- Theorems: `C13_set_parameters_refreshes` (PMapProps.v), `C13_scaled_setter_refreshes` (PMapProps.v), `C13_refused_map_disables_refresh_refuted` (PMapProps.v)

### C14 Optimised / fixed parameters partition

get_not_opt_params returns exactly the parameters that are not in the opt_map, with their values, in store order, and raises exactly if an identifier is unknown or repeated.

- Quantified over: all stores and opt_maps
- Code: c3/parametermap.py: get_not_opt_params
- Model: `PMapModel.v`
- Proof: filter/partition lemmas on the dictionary
- Status: proved
- Theorems: `C14_partition` (PMapProps.v), `C14_rejects_bad_maps` (PMapProps.v)

### C15 Saved point reloads

load_values of a file written by store_values restores the optimised parameters to the stored values, whatever happened to the parameters in between.

- Quantified over: all stores, opt_maps, intermediate histories of updates
- Code: c3/parametermap.py: store_values, load_values
- Model: `PMapModel.v`
- Proof: store/load composition, C08
- Status: proved
- Theorems: `C15_stored_point_reloads` (PMapProps.v), `C15_store_succeeds` (PMapProps.v)

### C16 opt_map validation

set_opt_map raises if some identifier is undefined and then leaves the map and the map in force unchanged; otherwise installs it and selects the model-updating setter iff it names a model parameter. (Limit equality inside groups is checked on the old map: refuted.)

- Quantified over: all stores, old and new maps
- Code: c3/parametermap.py: set_opt_map, check_limits
- Model: `PMapModel.v`
- Proof: case analysis of the checks in order
- Status: proved
- Theorems: `C16_unknown_identifier_refused` (PMapProps.v), `C16_accepted_map_is_stored` (PMapProps.v), `C16_mismatched_limits_accepted_refuted` (PMapProps.v)

### C17 Signal chain ordering is topological

For an accepted chain the processing order contains every device exactly once and every device after all of its sources.

- Quantified over: all device graphs
- Code: c3/generator/generator.py: Generator.__topological_ordering
- Model: `ChainModel.v`
- Proof: loop invariant of Kahn's algorithm (counts equal unprocessed sources)
- Status: proved
- Theorems: `C17_order_is_topological` (ChainProps.v)

### C18 Cyclic chains are rejected, acyclic accepted

set_chains raises the cycle error for each chain with a cyclic dependency, and the ordering succeeds for every acyclic chain in which sources are listed once and are devices of the chain.

- Quantified over: all device graphs
- Code: c3/generator/generator.py: __topological_ordering, __check_signal_chains
- Model: `ChainModel.v`
- Proof: completeness: a nonempty remainder with all counts positive contains a cycle (pigeonhole)
- Status: proved
- Theorems: `C18_cyclic_chains_rejected` (ChainProps.v), `C18_ordering_succeeds_iff_acyclic` (ChainProps.v), `C18_double_source_refuted` (ChainProps.v)

### C19 Signal generation equals data-flow semantics

generate_signals processes every device once, with the outputs of precisely its listed sources in order, and when every device feeds at most one other the returned channel signal is that of the unique final device, independent of dictionary order.

- Quantified over: all accepted chains, all device behaviours (arbitrary functions of their inputs)
- Code: c3/generator/generator.py: generate_signals
- Model: `ChainModel.v`
- Proof: induction along the topological order against a recursive data-flow semantics
- Status: proved
- Theorems: `C19_each_device_once` (ChainProps.v), `C19_generate_signals_is_dataflow` (ChainProps.v), `C19_fan_out_order_dependent_refuted` (ChainProps.v)

### C20 Accepted chains consume exactly what they produce

In an accepted chain every device receives exactly the number of inputs it declares and the total of outputs minus inputs is one.

- Quantified over: all chains and device tables
- Code: c3/generator/generator.py: __check_signal_chains
- Model: `ChainModel.v`
- Proof: sum over the devices of a chain
- Status: proved
- Theorems: `C20_accepted_chains_balance` (ChainProps.v), `C20_balanced_acyclic_chains_accepted` (ChainProps.v)

### C21 Folded product equals ordered product

Multiplying n slice propagators with the pre-computed folding stack for n gives U_n ... U_2 U_1.

- Quantified over: all n>=1, all matrices (any associative product)
- Code: c3/experiment.py: Experiment._compute_folding_stack; c3/utils/tf_utils.py: tf_matmul_n, _tf_matmul_n_even, _tf_matmul_n_odd
- Model: `FoldModel.v`
- Proof: the stack halves the list; induction on the stack over an arbitrary monoid
- Status: proved
- Theorems: `C21_folded_product` (FoldProps.v), `C21_stack_mismatch_refuted` (FoldProps.v)

### C22 Left and right products

tf_matmul_left gives U_n...U_1 and tf_matmul_right U_1...U_n, they agree with the folded product, and concatenating slice lists multiplies the results in the corresponding order.

- Quantified over: all lists
- Code: c3/utils/tf_utils.py: tf_matmul_left, tf_matmul_right
- Model: `FoldModel.v`
- Proof: list induction over an arbitrary monoid
- Status: proved
- Theorems: `C22_left_right_products` (FoldProps.v), `C22_concatenation` (FoldProps.v), `C22_empty_product_refused` (FoldProps.v)

### C23 Batching does not change propagation

tf_batch_propagate returns the same slice propagators for every batch size >= 1, covering every time slice once and in order.

- Quantified over: all signal lengths, batch sizes
- Code: c3/libraries/propagation.py: tf_batch_propagate
- Model: `FoldModel.v`
- Proof: concatenation of the slices of the batches equals the list (firstn/skipn induction)
- Status: proved
- Theorems: `C23_batching` (FoldProps.v), `C23_batch_size_irrelevant` (FoldProps.v), `C23_batching_hamiltonian` (FoldProps.v), `C23_lindblad_without_controls_refuted` (FoldProps.v)

### C24 Sequence evaluation composes in time order

evaluate_sequences returns for every sequence the product of its gates, later gates to the left, the identity for an empty sequence, so that the propagator of s1++s2 is P(s2)P(s1); unknown gates raise.

- Quantified over: all propagator tables and sequences
- Code: c3/libraries/propagation.py: evaluate_sequences
- Model: `FoldModel.v`
- Proof: fold over the sequence, product of an append
- Status: proved
- Theorems: `C24_sequence_is_time_ordered_product` (FoldProps.v), `C24_composition` (FoldProps.v), `C24_unknown_gate_raises` (FoldProps.v), `C24_empty_table_refused` (FoldProps.v)

### C25 Truncated matrix exponential

tf_expm(A, terms) equals the sum of the first `terms` Taylor terms A^k/k! for terms >= 2 (and always at least I+A), misses exp(A) by at most a^r/r! exp(a) in row sums (a the row sums of |A|, r the number of terms) and converges to it. tf_expm_dynamic stops at the first term with entries below the accuracy and misses exp(A) by at most n acc (exp(a)-1). (The accuracy itself does not bound the error, and one term is never returned: refuted.)

- Quantified over: all square matrices, all term counts, all accuracies
- Code: c3/libraries/propagation.py: tf_expm
- Model: `ExpmModel.v`, `Expm2Model.v`
- Proof: loop invariant: accumulated sum and current term; error bounds from row sum norms of the terms and the exponential series
- Status: proved
- Theorems: `C25_tf_expm_error` (Expm2Props.v), `C25_tf_expm_converges` (Expm2Props.v), `C25_tf_expm_dynamic_error` (Expm2Props.v), `C25_dynamic_accuracy_refuted` (Expm2Props.v), `C25_tf_expm_is_taylor` (ExpmProps.v), `C25_single_term_refuted` (ExpmProps.v), `C25_tf_expm_dynamic_is_taylor` (ExpmProps.v), `C25_tf_expm_dynamic_terminates` (ExpmProps.v)

### C26 State evolution along a sequence

The state used for populations after a gate sequence equals the product of the gates, later to the left, applied to the initial state; splitting a sequence and continuing from the intermediate state gives the same result.

- Quantified over: all sequences, propagators, initial states
- Code: c3/experiment.py: evaluate_legacy, evaluate_qasm
- Model: `FidModel.v`, `ExpModel.v`
- Proof: fold of matrix-vector products, associativity
- Status: proved
- Theorems: `C26_populations_of_sequences` (FidProps.v), `C26_state_evolution` (FoldProps.v), `C26_split_sequence` (FoldProps.v), `C26_sequences_independent` (FoldProps.v)

### C27 State index and labels are mutually inverse

get_state_index of a tuple of levels is the position of its label, labels enumerate every level tuple once, in Kronecker order (last subsystem fastest).

- Quantified over: all lists of subsystem dimensions, all states
- Code: c3/model.py: __create_labels, get_state_index, get_state_indeces
- Model: `HilbertModel.v`
- Proof: mixed radix representation, induction over the dimensions
- Status: proved
- Theorems: `C27_index_is_kronecker_position` (HilbertProps.v), `C27_labels_enumerate_every_state_once` (HilbertProps.v), `C27_unknown_state_refused` (HilbertProps.v), `C27_indeces_pointwise` (HilbertProps.v)

### C28 Single-subsystem operators act on their subsystem only

hilbert_space_kron(op, k, dims) has matrix element op[i_k,j_k] between labels that agree on all other subsystems and zero otherwise.

- Quantified over: all dims, k, op
- Code: c3/utils/qt_utils.py: hilbert_space_kron, np_kron_n; c3/model.py: __create_annihilators
- Model: `HilbertModel.v`
- Proof: Kronecker entries by div/mod induction
- Status: proved
- Theorems: `C28_embedded_operator` (HilbertProps.v), `C28_bad_index_refused` (HilbertProps.v), `C28_embedding_algebra` (HilbertProps.v), `C28_different_subsystems_commute` (HilbertProps.v)

### C29 Ladder operators

The annihilation operator of a d-level subsystem lowers by one with weight sqrt(n), its number operator is diagonal with the level of the label, operators of different subsystems commute, and [a,a+]=1 except on the top level.

- Quantified over: all dims
- Code: c3/model.py: __create_annihilators; c3/libraries/hamiltonians.py: resonator
- Model: `HilbertModel.v`
- Proof: entries of the ladder operators and C28
- Status: proved
- Theorems: `C29_annihilator_lowers` (HilbertProps.v), `C29_number_operator` (HilbertProps.v), `C29_commutator` (HilbertProps.v), `C29_different_subsystems_commute` (HilbertProps.v)

### C30 Gate embedding

insert_mat_kron(dims, targets, M) has matrix element M[targets(i),targets(j)] between states that agree outside the targets and 0 otherwise; embedding preserves products, adjoints and identity.

- Quantified over: all dims, target lists, matrices
- Code: c3/utils/qt_utils.py: insert_mat_kron, kron_ids
- Model: `HilbertModel.v`
- Proof: entries of iterated Kronecker products, permutation of target digits
- Status: proved
- Theorems: `C30_embedded_gate` (Hilbert2Props.v), `C30_embedding_algebra` (Hilbert2Props.v), `C30_embedded_unitary` (Hilbert2Props.v)

### C31 Excitation cut-off

With max_excitations set, cutting after blowing up is the identity, and cut keeps exactly the matrix elements between labels with total excitation at most the limit, in label order.

- Quantified over: all dims, limits, operators
- Code: c3/model.py: set_max_excitations, cut_excitations, blowup_excitations
- Model: `HilbertModel.v`
- Proof: selection of rows by a filtered label list, NoDup of the positions
- Status: proved
- Theorems: `C31_cut_keeps_low_excitations` (Hilbert2Props.v), `C31_blowup_places_elements` (Hilbert2Props.v), `C31_cut_after_blowup` (Hilbert2Props.v)

### C32 Computational projection

Projecting onto the computational subspace keeps exactly the matrix elements between states whose subsystems are in levels 0,1 (in qubit order), all subsystems outside `index` in the ground state.

- Quantified over: all dims, index lists, operators
- Code: c3/utils/tf_utils.py: tf_project_to_comp; c3/utils/qt_utils.py: projector
- Model: `HilbertModel.v`
- Proof: projector columns enumerate the labels with levels 0 and 1
- Status: proved
- Theorems: `C32_projection_keeps_computational_elements` (Hilbert2Props.v), `C32_superoperator_projection` (Hilbert2Props.v)

### C33 Frame rotation

The frame rotation is diagonal and unitary, multiplies a basis state with level n_k of line k by exp(i sum_k n_k (w_k t + fc_k)), and rotations compose by adding times and frame changes.

- Quantified over: all dims, times, frequencies, frame changes
- Code: c3/model.py: get_Frame_Rotation
- Model: `HilbertModel.v`
- Proof: matrix exponential of a diagonal matrix (MExp.v)
- Status: proved
- Theorems: `C33_frame_rotation_phases` (Hilbert2Props.v), `C33_frame_rotation_unitary` (Hilbert2Props.v), `C33_composition` (Hilbert2Props.v), `C33_defined_for_known_lines` (Hilbert2Props.v)

### C34 Randomised benchmarking sequences invert

Every RB sequence returned by single_length_RB, for every length and every random choice of Cliffords, composes to the identity up to a global phase, consists of RB_length Cliffords of which the last is the computed inverse.

- Quantified over: all lengths, all random choices
- Code: c3/utils/qt_utils.py: single_length_RB, inverseC, cliffords_decomp; c3/libraries/constants.py: CLIFFORDS
- Model: `GateModel.v`
- Proof: the 24 Cliffords in the exact ring Z[1/2, zeta_8], closed under product by kernel computation over the finite table; induction over the sequence
- Status: proved
- Theorems: `C34_sequences_invert` (GateProps.v), `C34_sequences_invert_on_register` (GateProps.v), `C34_zero_length_refused` (GateProps.v)

### C35 The 24 Cliffords form a group up to phase

Each tabulated gate decomposition multiplies (in time order) to the tabulated Clifford, the 24 Cliffords are pairwise different up to phase, are closed under products and inverses up to phase.

- Quantified over: all elements and hence all products of any length
- Code: c3/utils/qt_utils.py: cliffords_decomp, inverseC; c3/libraries/constants.py: CLIFFORDS, GATES
- Model: `GateModel.v`
- Proof: finite table, computed in the exact ring and transported to complex matrices
- Status: proved
- Theorems: `C35_decompositions` (GateProps.v), `C35_pairwise_different` (GateProps.v), `C35_closed_under_products` (GateProps.v), `C35_inverses` (GateProps.v)

### C36 Ideal gates are unitary

Every tabulated gate is unitary, hence every ideal gate built from a name like rx90p:id is unitary of the product dimension.

- Quantified over: all colon-joined names of known gates
- Code: c3/signal/gates.py: Instruction.set_ideal; c3/libraries/constants.py: GATES
- Model: `GateModel.v`
- Proof: finite table plus induction over Kronecker factors of the gate name
- Status: proved
- Theorems: `C36_tabulated_gates_unitary` (GateProps.v), `C36_joined_names_unitary` (GateProps.v), `C36_ideal_gate_on_register` (GateProps.v), `C36_unknown_names_refuted` (GateProps.v)

### C37 Lindblad step generates trace and Hermiticity preserving flow

The Lindblad right-hand side has zero trace, and is Hermitian for Hermitian state and Hamiltonian.

- Quantified over: all dimensions, states, Hamiltonians, collapse-operator lists
- Code: c3/libraries/propagation.py: lindblad, von_neumann
- Model: `PropModel.v`
- Proof: cyclicity of the trace, adjoint algebra
- Status: proved
- Theorems: `C37_lindblad_traceless` (PropProps.v), `C37_lindblad_hermitian` (PropProps.v), `C37_von_neumann` (PropProps.v)

### C38 ODE solvers preserve trace and Hermiticity

All four solvers (rk4, rk38, rk5, tsit5) keep trace and Hermiticity of the density matrix for the lindblad and von_neumann steps over any number of steps.

- Quantified over: all dims, Hamiltonian samples, step counts
- Code: c3/libraries/propagation.py: ode_solver, rk4, rk38, rk5, tsit5
- Model: `PropModel.v`
- Proof: a Runge-Kutta step is a combination of stages; invariance of an affine subspace; induction over steps
- Status: proved
- Theorems: `C38_trace_preserved` (PropProps.v), `C38_hermitian_preserved` (PropProps.v), `C38_final_state_agrees` (PropProps.v)

### C39 Superoperator propagation agrees with the Lindblad step

The generator assembled for piecewise-constant open-system propagation maps the row-stacked density matrix to the row-stacked Lindblad right-hand side.

- Quantified over: all dims, Hamiltonians, collapse operators, states
- Code: c3/libraries/propagation.py: tf_dU_of_t_lind, tf_propagation_lind; c3/utils/tf_utils.py: tf_spre, tf_spost, tf_super
- Model: `PropModel.v`
- Proof: entries of Kronecker products against row stacking
- Status: proved
- Theorems: `C39_generator_is_lindblad` (Prop2Props.v), `C39_code_paths_agree` (Prop2Props.v), `C39_evolution_keeps_trace` (Prop2Props.v), `C39_evolution_keeps_hermiticity` (Prop2Props.v), `C39_closed_system` (Prop2Props.v)

### C40 Superoperators compose

tf_super(U) maps the row-stacked rho to row-stacked U rho U+, tf_super(UV)=tf_super(U)tf_super(V), tf_super(1)=1.

- Quantified over: all dims and matrices
- Code: c3/utils/tf_utils.py: tf_super, tf_spre, tf_spost
- Model: `PropModel.v`
- Proof: entries of Kronecker products against row stacking
- Status: proved
- Theorems: `C40_super_conjugates` (Prop2Props.v), `C40_super_homomorphism` (Prop2Props.v), `C40_left_right` (Prop2Props.v), `C40_column_stacking_conjugates` (Prop2Props.v), `C40_dm_vec_round_trip` (Prop2Props.v), `C40_column_stacking_refuted` (Prop2Props.v), `C40_state_to_dm_refuted` (Prop2Props.v), `C40_state_to_dm_real` (Prop2Props.v)

### C41 Dephasing channel

The per-line dephasing channel preserves trace and all populations, is a convex mixture of unitary conjugations for rates in [0,1], is the identity at strength 0, and raises otherwise.

- Quantified over: all dims, strengths, amplitudes, times
- Code: c3/model.py: get_dephasing_channel
- Model: `PropModel.v`
- Proof: diagonal conjugations, convexity
- Status: proved
- Theorems: `C41_channel_is_parity_mixture` (Prop2Props.v), `C41_populations_and_trace` (Prop2Props.v), `C41_coherences` (Prop2Props.v), `C41_zero_strength_is_identity` (Prop2Props.v), `C41_raises_outside_range` (Prop2Props.v)

### C42 Runge-Kutta steps are Taylor steps for constant generators

For a time-independent linear right-hand side one rk4 or rk38 step is exactly the Taylor polynomial of order four. One rk5 step is a polynomial of degree seven that agrees with the exponential to fourth order; one tsit5 step likewise up to coefficients 1e-14. (Neither is of fifth order, and the partial propagators of rk4_unitary are transposed: refuted.)

- Quantified over: all linear right-hand sides, dims, states
- Code: c3/libraries/propagation.py: rk4, rk38, rk5, tsit5
- Model: `PropModel.v`
- Proof: each tableau expanded as a polynomial in the linear map
- Status: proved
- Theorems: `C42_rk4_is_taylor_4` (Prop2Props.v), `C42_rk38_is_taylor_4` (Prop2Props.v), `C42_rk5_step` (Prop2Props.v), `C42_rk5_order_five_refuted` (Prop2Props.v), `C42_tsit5_step` (Prop2Props.v), `C42_steps_are_linear` (Prop2Props.v), `C42_rk4_propagator` (Prop2Props.v), `C42_rk4_partials_transposed_refuted` (Prop2Props.v)

### C43 Solver sampling stays aligned

Each ODE step i reads the Hamiltonian samples at times t_i + c_k dt required by its stages, and never beyond the end of the interpolated array, for every solver and number of slices.

- Quantified over: all slice counts, all solvers
- Code: c3/libraries/propagation.py: ode_solver, ode_solver_final_state; c3/utils/tf_utils.py: interpolate_signal
- Model: `PropModel.v`
- Proof: index arithmetic of the interpolated arrays, for each solver
- Status: proved
- Theorems: `C43_sampling_aligned` (PropProps.v), `C43_rk4_unitary_last_slice_refuted` (PropProps.v)

### C44 Hamiltonians are Hermitian

All library Hamiltonians and drives built from the ladder operators, and any real combination or sum over slices of them, are Hermitian.

- Quantified over: all dims, all real coefficients and control fields
- Code: c3/libraries/hamiltonians.py: resonator, duffing, third_order, int_XX, int_YY, x_drive, y_drive, z_drive; c3/model.py: get_Hamiltonian, calculate_sum_Hs
- Model: `PropModel.v`
- Proof: closure of Hermitian matrices under sums and real scaling
- Status: proved
- Theorems: `C44_single_mode_hermitian` (Prop2Props.v), `C44_couplings_hermitian` (Prop2Props.v), `C44_control_sum_hermitian` (Prop2Props.v), `C44_control_sum_entries` (Prop2Props.v), `C44_duffing_energies` (Prop2Props.v)

### C45 Unitary infidelity

unitary_infid lies in [0,1] for unitary arguments, is 0 exactly if they agree up to a global phase, is symmetric and invariant under global phases.

- Quantified over: all dims and unitaries
- Code: c3/libraries/fidelities.py: unitary_infid; c3/utils/tf_utils.py: tf_unitary_overlap
- Model: `FidModel.v`
- Proof: Cauchy-Schwarz for the Hilbert-Schmidt product with the equality case
- Status: proved
- Theorems: `C45_range_and_zero` (FidProps.v), `C45_zero_iff_equal_up_to_phase` (FidProps.v), `C45_symmetric_and_phase_invariant` (FidProps.v), `C45_empty_index_refuted` (FidProps.v)

### C46 Average infidelity

average_infid of two unitaries equals 1-(|tr U+V|^2+d)/(d^2+d), lies in [0, d/(d+1)], zero exactly when equal up to phase.

- Quantified over: all dims and unitaries
- Code: c3/libraries/fidelities.py: average_infid; c3/utils/tf_utils.py: tf_average_fidelity, tf_super_to_fid, tf_choi_to_chi
- Model: `FidModel.v`
- Proof: trace of the chi matrix, C45
- Status: proved
- Theorems: `C46_value` (FidProps.v), `C46_range_and_zero` (FidProps.v), `C46_relation_to_unitary_infid` (FidProps.v), `C46_shapes` (FidProps.v)

### C47 State transfer infidelity

state_transfer_infid lies in [0,1] for unitary gates and normalised initial state and is zero iff the transferred states agree up to phase.

- Quantified over: all dims, unitaries, states
- Code: c3/libraries/fidelities.py: state_transfer_infid
- Model: `FidModel.v`
- Proof: Cauchy-Schwarz with the equality case
- Status: proved
- Theorems: `C47_range_and_zero` (FidProps.v)

### C48 Set infidelities are averages

The *_set figures are the arithmetic mean over the gates, lie between the smallest and largest single gate infidelity, vanish iff each vanishes (for nonnegative ones), and do not depend on the dictionary order.

- Quantified over: all finite gate sets
- Code: c3/libraries/fidelities.py: unitary_infid_set, state_transfer_infid_set, average_infid_set
- Model: `FidModel.v`
- Proof: sums over lists, permutation invariance
- Status: proved
- Theorems: `C48_sets_are_means` (FidProps.v), `C48_mean_between_extremes` (FidProps.v), `C48_order_irrelevant` (FidProps.v), `C48_set_in_range` (FidProps.v)

### C49 Populations are a probability distribution

Populations of a normalised state vector are nonnegative and sum to one, unitary gates keep this, and for a vectorised density matrix they are its diagonal.

- Quantified over: all dims, states
- Code: c3/libraries/fidelities.py: populations; c3/experiment.py: populations
- Model: `FidModel.v`
- Proof: norm preservation of unitaries
- Status: proved
- Theorems: `C49_pure_states` (FidProps.v), `C49_density_vector` (FidProps.v), `C49_superoperator_populations` (FidProps.v), `C49_density_total` (FidProps.v), `C49_expect_oper` (FidProps.v), `C49_expect_oper_real_state` (FidProps.v), `C49_expect_oper_refuted` (FidProps.v)

### C50 Confusion matrix conserves probability

ConfusionMatrix.confuse conserves the total population and nonnegativity for any assignment errors in [0,1], and is the identity for perfect readout.

- Quantified over: all numbers of subsystems, levels, error rates, populations
- Code: c3/libraries/tasks.py: ConfusionMatrix.confuse
- Model: `TaskModel.v`
- Proof: Kronecker product of column-stochastic matrices
- Status: proved
- Theorems: `C50_value` (TaskProps.v), `C50_shape_mismatch` (TaskProps.v), `C50_conserves_total` (TaskProps.v), `C50_nonnegative` (TaskProps.v), `C50_perfect_readout` (TaskProps.v), `C50_perfect_qubits_identity` (TaskProps.v)

### C51 Thermal initial state

The thermal initial state has nonnegative populations summing to one, ratios given by the Boltzmann factor, and is diagonal in the drift basis; the ground state for zero temperature.

- Quantified over: all level energies, temperatures > 0
- Code: c3/libraries/tasks.py: InitialiseGround.initialise
- Model: `TaskModel.v`
- Proof: normalised exponentials, diagonal conjugation
- Status: proved
- Theorems: `C51_thermal_state` (TaskProps.v), `C51_populations_ordered` (TaskProps.v), `C51_zero_temperature` (TaskProps.v)

### C52 Label processing sums populations

process with labels returns the sum of the populations of exactly the labelled states, rescaled affinely, so full label sets give total one.

- Quantified over: all label lists, populations
- Code: c3/experiment.py: process; c3/libraries/tasks.py: MeasurementRescale.rescale
- Model: `TaskModel.v`
- Proof: sums over a filtered enumeration
- Status: proved
- Theorems: `C52_labels` (TaskProps.v), `C52_all_labels_give_total` (TaskProps.v), `C52_unknown_label` (TaskProps.v), `C52_no_labels` (TaskProps.v)

### C53 Sampling returns valid distinct indices

Every sampling method returns pairwise different valid indices, at most batch_size many, from_start/from_end/all being exactly the prefix/suffix/all (batch_size 0 with from_end returns everything: refuted).

- Quantified over: all data sizes and batch sizes
- Code: c3/libraries/sampling.py: all, from_start, from_end, even, random_sample, high_std, even_fid
- Model: `LearnModel.v`
- Proof: list lemmas per sampling method
- Status: proved
- Theorems: `C53_all_and_prefix` (LearnProps.v), `C53_suffix` (LearnProps.v), `C53_suffix_zero_refuted` (LearnProps.v), `C53_even` (LearnProps.v), `C53_even_errors` (LearnProps.v), `C53_random` (LearnProps.v), `C53_random_reaches_every_point` (LearnProps.v), `C53_high_std` (LearnProps.v), `C53_even_fid` (LearnProps.v)

### C54 Learning and validation sets partition the data

The validation selection is exactly the complement of the learning selection for any deterministic sampling method.

- Quantified over: all data sizes, sampling methods
- Code: c3/optimizers/modellearning.py: ModelLearning.select_from_data
- Model: `LearnModel.v`
- Proof: filter complement
- Status: proved
- Theorems: `C54_partition` (LearnProps.v), `C54_random_refuted` (LearnProps.v)

### C55 Estimators

Distance estimators are nonnegative, vanish exactly on perfect agreement, mean <= rms; the normalised Gaussian likelihood is minimal at agreement; combined goal is the weighted mean and its gradient is the chain rule.

- Quantified over: all data lengths and values
- Code: c3/libraries/estimators.py: mean_dist, rms_dist, neg_loglkh_gauss_norm, g_LL_prime, g_LL_prime_combined, dv_g_LL_prime
- Model: `LearnModel.v`
- Proof: sums of squares, Cauchy-Schwarz for lists, real analysis of the normalised likelihood
- Status: proved
- Theorems: `C55_distances` (LearnProps.v), `C55_defined` (LearnProps.v), `C55_mean_at_most_rms` (LearnProps.v), `C55_std_of_diffs_refuted` (LearnProps.v), `C55_gaussian` (LearnProps.v), `C55_likelihood` (LearnProps.v), `C55_combined_between` (LearnProps.v), `C55_gradient` (LearnProps.v)

### C56 Best point tracking

After any history of goal evaluations the best-point file holds the parameters of the first evaluation with the smallest goal below the sentinel, and after a run whose vectors stay within [-1,1] the parameters are those; without any goal below the sentinel the final load fails. (Vectors outside are logged unfolded, so that loading the best point may fail: refuted.)

- Quantified over: all evaluation histories (any algorithm)
- Code: c3/optimizers/optimizer.py: Optimizer.log_parameters, fct_to_min, fct_to_min_autograd; c3/optimizers/optimalcontrol.py: optimize_controls
- Model: `OptModel.v`
- Proof: invariant over an arbitrary evaluation history
- Status: proved
- Theorems: `C56_best_point` (OptProps.v), `C56_after_the_run` (OptProps.v), `C56_nothing_below_sentinel` (OptProps.v), `C56_unfolded_log_refuted` (OptProps.v)

### C57 Gradient lookup returns the matching gradient

lookup_gradient(x) after fct_to_min_autograd(x) returns the gradient computed at x with non-finite entries replaced, provided no later evaluation had the same printed form; a second lookup raises.

- Quantified over: all histories of evaluations and lookups
- Code: c3/optimizers/optimizer.py: lookup_gradient, fct_to_min_autograd
- Model: `OptModel.v`
- Proof: dictionary of printed vectors; invariant over histories
- Status: proved
- Theorems: `C57_lookup` (OptProps.v), `C57_collision_refuted` (OptProps.v)

### C58 Grid and sweep coverage

grid2D evaluates each grid point exactly once, in row-major order; sweep evaluates init point, probe points, then the linear grid, with end points included.

- Quantified over: all point counts, bounds, probe lists
- Code: c3/libraries/algorithms.py: grid2D, sweep
- Model: `OptModel.v`
- Proof: enumeration of the product grid by list induction
- Status: proved
- Theorems: `C58_linspace` (OptProps.v), `C58_grid` (OptProps.v), `C58_sweep` (OptProps.v), `C58_empty_probe_list_refuted` (OptProps.v)

### C59 CMA custom stopping rules

The shrink criterion fires exactly if the last stop_at_convergence step widths are strictly decreasing; (the sigma criterion truncates its threshold to an integer: refuted).

- Quantified over: all step-width histories
- Code: c3/libraries/algorithms.py: cmaes
- Model: `OptModel.v`
- Proof: list characterisation of the stopping rules
- Status: proved
- Theorems: `C59_stops_exactly` (OptProps.v), `C59_sigma_threshold_refuted` (OptProps.v), `C59_combined_options` (OptProps.v)

### C60 Envelopes are confined to their window

The masked envelope has one value per time point; from the start of its window up to 0.998 of the window length (the smaller of t_final and the slot) the shape is reproduced up to a relative error 2 exp(-1000), and before the window or after 0.999 of its length the value is at most exp(-1000) of the shape, which is zero in double precision (so the last thousandth of the window is cut: refuted as literal claim).

- Quantified over: all time points, lengths
- Code: c3/signal/pulse.py: Envelope.compute_mask
- Model: `EnvModel.v`
- Proof: bounds of the sigmoid mask by exp(-1000)
- Status: proved
- Theorems: `C60_window` (EnvProps.v), `C60_underflow` (EnvProps.v), `C60_outside_slot` (EnvProps.v), `C60_last_thousandth_refuted` (EnvProps.v)

### C61 Component timing

Component start and end times returned by get_timings lie in order, satisfy trigger chains, and the full gate length covers every component.

- Quantified over: all acyclic component configurations
- Code: c3/signal/gates.py: Instruction.get_timings, get_full_gate_length
- Model: `TimingModel.v`
- Proof: well-founded recursion over triggers with fuel; invariants over the component list
- Status: proved
- Theorems: `C61_timings` (TimingProps.v), `C61_channel` (TimingProps.v), `C61_order` (TimingProps.v), `C61_double_start_refuted` (TimingProps.v), `C61_keys_distinct` (TimingProps.v), `C61_key_collision_refuted` (TimingProps.v), `C61_cycle_refuted` (TimingProps.v), `C61_stale_memo_refuted` (TimingProps.v), `C61_full_length` (TimingProps.v), `C61_order_dependence_refuted` (TimingProps.v)

### C62 Automatic gate length

If every trigger has a length of its own, auto_adjust_t_end returns, leaves a gate length (end of the last component times 1+buffer) for which all components fit, and changes nothing else (it does not return if a pulse is triggered by a carrier: refuted).

- Quantified over: all instruction configurations
- Code: c3/signal/gates.py: auto_adjust_t_end
- Model: `TimingModel.v`
- Proof: fixpoint of the adjustment loop
- Status: proved
- Theorems: `C62_auto_adjust` (TimingProps.v), `C62_divergence_refuted` (TimingProps.v)

### C63 Symmetric bounded pulse shapes

cosine, gaussian, trapezoid, flattop shapes are symmetric in time about the centre, bounded by their amplitude and vanish where documented.

- Quantified over: all times and parameters
- Code: c3/libraries/envelopes.py: cosine, gaussian_nonorm, trapezoid, flattop, cosine_flattop
- Model: `EnvModel.v`
- Proof: real analysis of each shape; erf built as an integral (Erf.v)
- Status: proved
- Theorems: `C63_cosine` (EnvProps.v), `C63_gaussian_nonorm` (EnvProps.v), `C63_gaussian_sigma` (EnvProps.v), `C63_gaussian` (EnvProps.v), `C63_drag_sigma` (EnvProps.v), `C63_flattop` (EnvProps.v), `C63_flattop_risefall` (EnvProps.v), `C63_flattop_cut_center` (EnvProps.v), `C63_flattop_cut` (EnvProps.v), `C63_trapezoid` (EnvProps.v), `C63_trapezoid_overlap_refuted` (EnvProps.v), `C63_flattop_variant` (EnvProps.v), `C63_pwc` (EnvProps.v), `C63_fourier` (EnvProps.v), `C63_fourier_harmonics` (EnvProps.v), `C63_cosine_flattop` (EnvProps.v), `C63_cosine_flattop_refuted` (EnvProps.v)

### C64 DRAG derivative

drag_der is the time derivative of drag_sigma; (gaussian_der_nonorm has the opposite sign of the derivative: refuted).

- Quantified over: all times and parameters
- Code: c3/libraries/envelopes.py: drag_sigma, drag_der, gaussian_der_nonorm
- Model: `EnvModel.v`
- Proof: Coquelicot derivatives
- Status: proved
- Theorems: `C64_drag_der` (EnvProps.v), `C64_gaussian_der_sign_refuted` (EnvProps.v), `C64_drag_envelope` (EnvProps.v)

### C65 Time grids

create_ts produces slice_num equidistant points; for an interval of a whole number of slices these are exactly the slice centres (or edges). In general the first and last points are half a slice from the ends and the spacing is at least, and less than (1+1/(n-1)) times, the slice length. (That the spacing always is the slice length 1/resolution, which the solvers use, is refuted.)

- Quantified over: all start/end/resolution with at least one slice
- Code: c3/generator/devices.py: Device.create_ts, calc_slice_num
- Model: `DevModel.v`
- Proof: linspace arithmetic, floor/ceil bounds
- Status: proved
- Theorems: `C65_centres` (DevProps.v), `C65_edges` (DevProps.v), `C65_general` (DevProps.v), `C65_too_short` (DevProps.v), `C65_step_refuted` (DevProps.v)

### C66 IQ mixing

The mixer output of envelope (I,Q) and local oscillator is amp*cos(w t + phase) form; it is linear in the envelopes and bounded by the sum of their magnitudes. (Of several carriers only the last counts; without a carrier the previous signal is reused: refuted.)

- Quantified over: all signals, phases, frequencies
- Code: c3/generator/devices.py: LO.process, Mixer.process, AWG.create_IQ
- Model: `DevModel.v`
- Proof: trigonometric addition theorems per sample
- Status: proved
- Theorems: `C66_mixed` (DevProps.v), `C66_cosine_form` (DevProps.v), `C66_bounded` (DevProps.v), `C66_linear` (DevProps.v), `C66_stale_lo_refuted` (DevProps.v), `C66_last_carrier_refuted` (DevProps.v)

### C67 Convolution

tf_convolve is the linear convolution truncated to the signal length: bilinear, causal, and shift covariant; unit impulse is neutral.

- Quantified over: all signal and response lengths
- Code: c3/utils/tf_utils.py: tf_convolve
- Model: `DevModel.v`
- Proof: FFT convolution modelled by the DFT (Dft.v), orthogonality of roots of unity
- Status: proved
- Theorems: `C67_convolution` (DevProps.v), `C67_impulse` (DevProps.v), `C67_causal` (DevProps.v), `C67_delay` (DevProps.v), `C67_bilinear` (DevProps.v), `C67_legacy_late_refuted` (DevProps.v)

### C68 Step response filter

A StepFuncFilter driven by a constant signal returns the constant times its step response, it is linear and causal.

- Quantified over: all lengths and step responses
- Code: c3/generator/devices.py: StepFuncFilter.process
- Model: `DevModel.v`
- Proof: telescoping sums of the step response
- Status: proved
- Theorems: `C68_step` (DevProps.v), `C68_linear_causal` (DevProps.v), `C68_filters` (DevProps.v), `C68_start_time_refuted` (DevProps.v)

### C69 Flux tuning references

The flux tuning factor is between the square root of the asymmetry and 1, even and periodic in the flux quantum; FluxTuning returns the frequency shift relative to the bias point, which is zero for zero signal and bounded. (CouplingTuning output sign and FluxTuningLinear parameter name deviate: refuted.)

- Quantified over: all parameters
- Code: c3/generator/devices.py: FluxTuning.process, FluxTuning.get_factor, CouplingTuning.process
- Model: `DevModel.v`
- Proof: bounds of the tuning curve
- Status: proved
- Theorems: `C69_factor` (DevProps.v), `C69_flux` (DevProps.v), `C69_coupling` (DevProps.v), `C69_coupling_sign_refuted` (DevProps.v), `C69_linear_refuted` (DevProps.v), `C69_linear` (DevProps.v)

### C70 Net-zero pulses

Net-zero envelopes have zero sum and the length of the time grid.

- Quantified over: all lengths and shapes
- Code: c3/signal/pulse.py: EnvelopeNetZero.get_shape_values
- Model: `EnvModel.v`
- Proof: list sums
- Status: proved
- Theorems: `C70_net_zero` (EnvProps.v), `C70_base_length` (EnvProps.v), `C70_arity_refuted` (EnvProps.v)

### C71 Instruction dictionary round trip

Writing an instruction (or a whole parameter map) to JSON and reading it back reproduces its name, length, targets, ideal gate, parameters, channels, and each component with its class, shape, parameters and options; tuples come back as lists. Reading a second time changes nothing. (from_dict(asdict()) without JSON raises; description, comment and use_t_before are lost; a start time other than zero is lost: refuted.)

- Quantified over: all instructions built by __init__ and add_component
- Code: c3/signal/gates.py: Instruction.__init__, add_component, asdict, from_dict; c3/signal/pulse.py: Envelope.asdict, Carrier; c3/parametermap.py: asdict, fromdict
- Model: `ConfModel.v`
- Proof: restored instruction computed exactly; structural induction over configuration values
- Status: proved
- Theorems: `C71_exact` (ConfProps.v), `C71_roundtrip` (ConfProps.v), `C71_plain` (ConfProps.v), `C71_defaults` (ConfProps.v), `C71_valid` (ConfProps.v), `C71_stable` (ConfProps.v), `C71_init` (ConfProps.v), `C71_add_component` (ConfProps.v), `C71_parameter_map` (ConfProps.v), `C71_in_memory_refuted` (ConfProps.v), `C71_lost_refuted` (ConfProps.v), `C71_start_refuted` (ConfProps.v)

### C72 Generator and model dictionary round trips

Writing a generator to JSON and reading it into a new one reproduces every device (class, name, inputs, outputs, resolution, parameters), the chains and their orderings, for all device classes but those below. Writing a model and reading it into a new one gives the same model: subsystems with their drive lines, couplings, tasks and the excitation cut-off. (Crosstalk, Pink_Noise, LONoise, FluxTuningLinear and SNAIL do not come back; keywords that are no quantities cannot be written; two_inputs, the generator resolution and the dressed and Lindbladian flags are lost; Model(subsystems) without couplings raises: refuted.)

- Quantified over: all devices, chains, subsystems, lines, tasks with quantity parameters
- Code: c3/generator/generator.py: asdict, fromdict; c3/model.py: asdict, fromdict
- Model: `Conf2Model.v`
- Proof: general lemma for a dictionary of parts whose constructors invert their asdict; drive lines only touch one field
- Status: proved
- Theorems: `C72_device` (Conf2Props.v), `C72_generator` (Conf2Props.v), `C72_model` (Conf2Props.v), `C72_device_new` (Conf2Props.v), `C72_keyword_refuted` (Conf2Props.v), `C72_classes_refuted` (Conf2Props.v), `C72_attributes_refuted` (Conf2Props.v), `C72_model_refuted` (Conf2Props.v)

### C73 flatten

flatten returns the leaves of an arbitrarily nested list in order and is idempotent.

- Quantified over: all nested lists
- Code: c3/utils/utils.py: flatten
- Model: `MiscModel.v`
- Proof: induction over nested lists
- Status: proved
- Theorems: `C73_flatten` (MiscProps.v), `C73_idempotent` (MiscProps.v)

### C74 Qiskit counts labelling

With equal dimensions each hexadecimal count label is the index of its state and every state is labelled exactly once; the shot total deviates from shots by at most half the number of states. (The total need not equal shots, labels of multilevel systems are not bit strings, unequal dimensions drop states and flip_labels merges labels: refuted.)

- Quantified over: all qubit numbers, level numbers, populations
- Code: c3/qiskit/c3_backend.py: get_labels, generate_shot_readout, run_experiment; c3/qiskit/c3_backend_utils.py: flip_labels
- Model: `QiskitModel.v`
- Proof: hexadecimal digits against positions, rounding bounds
- Status: proved
- Theorems: `C74_labels` (QiskitProps.v), `C74_bitstring` (QiskitProps.v), `C74_counts` (QiskitProps.v), `C74_shot_total` (QiskitProps.v), `C74_total_refuted` (QiskitProps.v), `C74_flip_refuted` (QiskitProps.v), `C74_multilevel_refuted` (QiskitProps.v), `C74_unequal_dims_refuted` (QiskitProps.v)

### C75 Circuit sanitising

sanitize_instructions drops exactly measure and barrier and keeps the order of all others; measurement positions are exactly those of measure. Barriers never change a result, an unknown gate raises the backend error and a trailing param_update acts before the circuit. (A circuit of measurements only fails with IndexError: refuted.)

- Quantified over: all circuits
- Code: c3/qiskit/c3_backend.py: sanitize_instructions, locate_measurements
- Model: `QiskitModel.v`
- Proof: filter lemmas
- Status: proved
- Theorems: `C75_statevector` (Exp3Props.v), `C75_statevector_complete` (Exp3Props.v), `C75_sanitize` (QiskitProps.v), `C75_measurements` (QiskitProps.v), `C75_barriers_neutral` (QiskitProps.v), `C75_measure_only_refuted` (QiskitProps.v), `C75_unknown_gate` (QiskitProps.v), `C75_param_update` (QiskitProps.v)

### C76 Potential derivatives

The analytic derivative orders of the flux-qubit potentials are the successive derivatives of the potential.

- Quantified over: all phases and parameters
- Code: c3/libraries/chip.py: CShuntFluxQubit.get_potential_function, Fluxonium.get_potential_function
- Model: `ChipModel.v`
- Proof: Coquelicot derivatives for every order
- Status: proved
- Theorems: `C76_cshunt` (ChipProps.v), `C76_cshunt_all_orders` (ChipProps.v), `C76_high_order_signal_refuted` (ChipProps.v), `C76_fluxonium` (ChipProps.v)

### C77 Engineering notation

eng_num(v) returns mantissa and prefix with mantissa*10^prefix = v and 1 <= |mantissa| < 1000 for 1e-21 <= |v| < 1e24, and the exact product for all other positive v. (Negative v outside the range lose their sign: refuted.)

- Quantified over: all nonzero reals in range
- Code: c3/utils/utils.py: eng_num
- Model: `MiscModel.v`
- Proof: exponent arithmetic with floor of the logarithm
- Status: proved
- Theorems: `C77_exact` (MiscProps.v), `C77_outside` (MiscProps.v), `C77_sign_refuted` (MiscProps.v)

### C78 Eigenvector reordering

When every eigenvector has a dominant component the reordering is a permutation, the transformation stays unitary and the energies are permuted accordingly.

- Quantified over: all dims, all unitary eigenvector matrices
- Code: c3/model.py: reorder_frame, update_drift_eigen
- Model: `FrameModel.v`
- Proof: greedy assignment is injective under dominance; permutation matrices
- Status: proved
- Theorems: `C78_permutation` (FrameProps.v), `C78_transform` (FrameProps.v), `C78_overly_dressed` (FrameProps.v), `C78_unordered` (FrameProps.v), `C78_imaginary_refuted` (FrameProps.v), `C78_fallback_refuted` (FrameProps.v)

### C79 Config value encoding

hjson_decode(hjson_encode z) reproduces complex numbers, arrays and quantities at any nesting depth of containers.

- Quantified over: all nested values
- Code: c3/c3objs.py: hjson_encode, hjson_decode
- Model: `MiscModel.v`
- Proof: structural induction over values
- Status: proved
- Theorems: `C79_roundtrip` (MiscProps.v), `C79_exact` (MiscProps.v), `C79_marker_refuted` (MiscProps.v)

### C80 Gate selection for sequences

compute_propagators returns exactly the selected gates, each computed from its own instruction; after set_opt_gates_seq these are the gates occurring in the sequences, every sequence can be evaluated and the result does not depend on the selection order; a failing call leaves the stored propagators as they were.

- Quantified over: all sequences
- Code: c3/experiment.py: set_opt_gates_seq, set_opt_gates, compute_propagators
- Model: `ExpModel.v`
- Proof: loop invariant over the selected gates
- Status: proved
- Theorems: `C80_frame_rotation` (Exp3Props.v), `C80_unknown_gate_error` (Exp4Props.v), `C80_first_error` (Exp4Props.v), `C80_selected_gates` (ExpProps.v), `C80_failure_keeps_propagators` (ExpProps.v), `C80_unknown_gate_fails` (ExpProps.v), `C80_sequences` (ExpProps.v), `C80_order_irrelevant` (ExpProps.v), `C80_earlier_gates_refuted` (ExpProps.v)

### C81 Dressed frame

Changing to the dressed basis is a unitary similarity: Hermiticity, trace and products of operators are preserved and the drift becomes diagonal.

- Quantified over: all dims, Hermitian drifts, unitary transforms
- Code: c3/model.py: update_dressed; c3/libraries/chip.py: PhysicalComponent.get_transformed_hamiltonians
- Model: `FrameModel.v`
- Proof: similarity transformation algebra
- Status: proved
- Theorems: `C81_operators` (Frame2Props.v), `C81_dressed_drift` (Frame2Props.v), `C81_propagation` (Frame2Props.v), `C81_qubit_frequencies` (Frame2Props.v)

### C82 Piecewise constant propagation is unitary

For Hermitian Hamiltonians and real signals every partial propagator and every gate propagator of an experiment is unitary, for any number of slices, batch size and frame rotation, and is the time ordered product of exp(-i dt H(t)); for open systems it keeps trace and Hermiticity of density matrices. With an excitation cut-off this holds on the kept states only.

- Quantified over: all slice counts, unitary slices
- Code: c3/libraries/propagation.py: pwc; c3/experiment.py: compute_propagators
- Model: `ExpModel.v`
- Proof: exp(-iHt) of a Hermitian matrix is unitary (MExp2.v); products of unitaries
- Status: proved
- Theorems: `C82_uncontrolled_slices` (Exp4Props.v), `C82_different_lengths` (Exp4Props.v), `C82_different_lengths_controlled` (Exp4Props.v), `C82_time_slices` (ExpProps.v), `C82_closed_unitary` (ExpProps.v), `C82_open_density` (ExpProps.v), `C82_experiment_unitary` (ExpProps.v), `C82_experiment_density` (ExpProps.v), `C82_cut_block_unitary` (ExpProps.v), `C82_cut_unitary_refuted` (ExpProps.v), `C82_cut_controlled_refuted` (ExpProps.v), `C82_dephasing_refuted` (ExpProps.v)

### C83 Robust optimisation averages and restores

goal_run_with_grad of the robust optimiser evaluates every noise instance on the store with the optimiser vector and that one noise value, returns the means of goal and gradient, and restores every noise parameter to its original value, provided noise parameters are not optimised and the members of a noise group agree. (A raising instance is not undone, an optimised noise parameter sees no noise, and groups are overwritten with the value of their first member: refuted.)

- Quantified over: all noise maps and parameter stores
- Code: c3/optimizers/optimalcontrol_robust.py: goal_run_with_grad, noise_instance
- Model: `RobustModel.v`
- Proof: loop invariants over noise instances; the parameter store as in PMapModel
- Status: proved
- Theorems: `C83_averages_and_restores` (RobustProps.v), `C83_succeeds` (RobustProps.v), `C83_failure_not_restored_refuted` (RobustProps.v), `C83_optimised_noise_refuted` (RobustProps.v), `C83_group_overwritten_refuted` (RobustProps.v)

### C84 Rotations

rotation(phi, n) is unitary for unit n, composes additively for a fixed axis, and is -1 at 2 pi.

- Quantified over: all angles and unit axes
- Code: c3/utils/qt_utils.py: rotation
- Model: `MiscModel.v`
- Proof: 2x2 algebra
- Status: proved
- Theorems: `C84_exponential` (MiscProps.v), `C84_unitary` (MiscProps.v), `C84_additive` (MiscProps.v), `C84_gates` (MiscProps.v)

### C85 Experiment sequences for T1 and Ramsey

T1 and Ramsey sequences contain exactly `length` waiting gates between their pulses on the given target; the echo sequence splits the waiting symmetrically (odd lengths lose one wait: refuted).

- Quantified over: all lengths and targets
- Code: c3/utils/qt_utils.py: T1_sequence, ramsey_sequence, ramsey_echo_sequence
- Model: `MiscModel.v`
- Proof: list computation with induction over the length
- Status: proved
- Theorems: `C85_structure` (MiscProps.v), `C85_flip` (MiscProps.v), `C85_odd_echo_refuted` (MiscProps.v), `C85_wait_name_refuted` (MiscProps.v)

### C86 Transmon tuning curve

The transmon flux factor is positive, 1 at zero flux, at least the asymmetry bound, symmetric and periodic; the frequency is therefore between its extreme values.

- Quantified over: all flux values and junction asymmetries
- Code: c3/libraries/chip.py: Transmon.get_factor, get_freq
- Model: `ChipModel.v`
- Proof: bounds of cos^2 + d^2 sin^2 roots
- Status: proved
- Theorems: `C86_curve` (ChipProps.v), `C86_monotone` (ChipProps.v), `C86_junction_ratio` (ChipProps.v), `C86_frequency` (ChipProps.v), `C86_device_agrees` (ChipProps.v), `C86_expanded_leading_term` (ChipProps.v), `C86_expanded_is_cosine_series` (ChipProps.v), `C86_positive_refuted` (ChipProps.v)

### C87 Sample and hold

With a simulation resolution k times the AWG resolution the DigitalToAnalog device holds every AWG sample for k simulation slices, which lie inside the AWG slice of that sample; for any two resolutions every output is an input sample and the order is kept.

- Quantified over: all resolutions, factors, lengths and signals
- Code: c3/generator/devices.py: DigitalToAnalog.process
- Model: `DevModel.v`
- Proof: floor arithmetic of the nearest sample
- Status: proved
- Theorems: `C87_hold` (Dev2Props.v), `C87_order` (Dev2Props.v)

### C88 Crosstalk

Every crossed channel carries at every time the matrix-weighted sum of the crossed channels; other channels are untouched and the identity matrix is neutral. (A crossed channel that the instruction does not drive raises KeyError: refuted.)

- Quantified over: all matrices, channels and signals
- Code: c3/generator/devices.py: Crosstalk.process
- Model: `DevModel.v`
- Proof: list sums and dictionary frame
- Status: proved
- Theorems: `C88_mixing` (Dev2Props.v), `C88_identity` (Dev2Props.v), `C88_undriven_channel_refuted` (Dev2Props.v)

### C89 Bandwidth limitation

The rise function of Response and ResponseFFT has positive weights with sum 1, so the output never exceeds the largest input magnitude and follows a constant input exactly after the rise time. (Response returns its own time grid, which may not match the signal: refuted.)

- Quantified over: all rise times of at least one slice, resolutions above 1 Hz, signals
- Code: c3/generator/devices.py: Response.process, ResponseFFT.process
- Model: `DevModel.v`
- Proof: positivity and sums of normalised weights
- Status: proved
- Theorems: `C89_response_fft` (Dev2Props.v), `C89_response` (Dev2Props.v), `C89_grid_mismatch_refuted` (Dev2Props.v)

### C90 Noise and offset devices

Additive noise devices return input plus the recorded noise and are transparent below the amplitude threshold. (DC_Offset also shifts the time points: refuted.)

- Quantified over: all signals and noises
- Code: c3/generator/devices.py: Additive_Noise.process, DC_Noise.get_noise, DC_Offset.process
- Model: `DevModel.v`
- Proof: pointwise
- Status: proved
- Theorems: `C90_additive` (Dev2Props.v), `C90_offset_times_refuted` (Dev2Props.v)

### C91 Sequences in QASM format and virtual Z gates

evaluate_qasm applies the operations of each sequence in order to the initial state and returns its populations. A virtual Z gate is the diagonal unitary exp(-i angle/2 Z) of its target on all qubit states, angles add up and populations never change. (The phase vanishes when any other subsystem leaves its qubit levels, and open systems cannot use it: refuted.)

- Quantified over: all sequences, dimensions of at least 2, targets, angles, states
- Code: c3/experiment.py: evaluate_qasm, lookup_gate, get_VZ; c3/utils/qt_utils.py: perfect_single_q_parametric_gate
- Model: `QiskitModel.v`
- Proof: diagonal gate entries on labels (C28), fold over the sequence
- Status: proved
- Theorems: `C91_sequences` (QiskitProps.v), `C91_virtual_z` (QiskitProps.v), `C91_vz_populations` (QiskitProps.v), `C91_vz_additive` (QiskitProps.v), `C91_vz_local_refuted` (QiskitProps.v), `C91_vz_open_refuted` (QiskitProps.v)

### C92 Instruction keys

Two instructions whose names are free of '[' have the same key only if their names and targets agree. (With '[' in a name keys collide: refuted.)

- Quantified over: all names and target lists
- Code: c3/signal/gates.py: Instruction.get_key; c3/experiment.py: lookup_gate
- Model: `QiskitModel.v`
- Proof: injectivity of the printed key
- Status: proved
- Theorems: `C92_keys_injective` (QiskitProps.v), `C92_bracket_names_refuted` (QiskitProps.v)

### C93 Hamiltonians of chip components

The Hamiltonian of every polynomial chip component is Hermitian; a Qubit with two levels has level spacing freq, and levels n*freq + n(n-1)/2*anhar otherwise; a transformation is a similarity. (The truncated-cosine flux qubit Hamiltonian is not Hermitian: refuted.)

- Quantified over: all dims, levels, frequencies, anharmonicities
- Code: c3/libraries/chip.py: Qubit.get_Hamiltonian, Transmon.get_Hamiltonian, CShuntFluxQubitCos.get_Hamiltonian
- Model: `ChipModel.v`
- Proof: polynomials in ladder operators; spectra of diagonal operators
- Status: proved
- Theorems: `C93_qubit_levels` (Chip2Props.v), `C93_transmon_levels` (Chip2Props.v), `C93_snail_levels` (Chip2Props.v), `C93_hermitian` (Chip2Props.v), `C93_transform_is_similarity` (Chip2Props.v), `C93_requirements` (Chip2Props.v), `C93_cos_qubit_hermitian_refuted` (Chip2Props.v)

### C94 Decay and dephasing rates

With only t1 the mean excitation decays at 1/t1, with only t2star coherences between levels decay at (difference)^2/t2star. (Transmon relaxes at another rate, thermal excitation does not reach the Boltzmann distribution, and relaxation plus dephasing is not the sum of the two processes: refuted.)

- Quantified over: all dims, levels, rates, states
- Code: c3/libraries/chip.py: Qubit.get_Lindbladian, Transmon.get_Lindbladian; c3/libraries/propagation.py: lindblad
- Model: `ChipModel.v`
- Proof: derivative of expectation values under the Lindblad right-hand side
- Status: proved
- Theorems: `C94_relaxation` (Chip2Props.v), `C94_needs_times` (Chip2Props.v), `C94_transmon_relaxation_refuted` (Chip2Props.v), `C94_dephasing` (Chip2Props.v), `C94_thermal_rates` (Chip2Props.v), `C94_thermal_equilibrium_refuted` (Chip2Props.v), `C94_independent_processes_refuted` (Chip2Props.v)

### C95 Hamiltonian of a driven model

get_Hamiltonian(signal) is at every time the sum over all components of their Hamiltonian or of their response to the sample; for drive lines it is drift + sum c_k(t) H_k, in the bare and the dressed frame, so both branches of pwc compute the same gate. Signals for couplings and unknown names are refused.

- Quantified over: all component sets, signals, lengths, frames
- Code: c3/model.py: get_Hamiltonian, update_Hamiltonians; c3/libraries/chip.py: Drive.get_Hamiltonian, Coupling.get_Hamiltonian; c3/libraries/propagation.py: pwc
- Model: `FrameModel.v`
- Proof: sums over component dictionaries, similarity
- Status: proved
- Theorems: `C95_hamiltonian` (Frame2Props.v), `C95_refused` (Frame2Props.v), `C95_drives` (Frame2Props.v), `C95_branches_agree` (Frame2Props.v)

### C96 Pauli basis and chi matrix

Column a of pauli_basis is the flattened Pauli string number a; the columns are orthogonal with squared norm 2^k and complete, so every operator has unique Pauli coefficients. The chi matrix of a unitary process has entries conj(tr(P_a U)) tr(P_b U), its diagonal is nonnegative and sums to 4^k.

- Quantified over: all qubit numbers, all operators
- Code: c3/utils/qt_utils.py: pauli_basis; c3/utils/tf_utils.py: tf_choi_to_chi, super_to_choi
- Model: `FidModel.v`
- Proof: Kronecker induction over qubits; orthogonality and completeness of the Pauli basis
- Status: proved
- Theorems: `C96_pauli_basis_columns` (ChiProps.v), `C96_pauli_basis_orthogonal` (ChiProps.v), `C96_chi_of_unitary_process` (ChiProps.v), `C96_chi_diagonal` (ChiProps.v)

### C97 Experiment configuration round trip

Writing an experiment to a file and reading it into a new one reproduces its model, generator, instructions, simulation resolution and the four stored options. (The propagation method is not stored and comes back as pwc: refuted.)

- Quantified over: all experiments whose parts can be written
- Code: c3/experiment.py: write_config, read_config, asdict, from_dict
- Model: `Conf2Model.v`
- Proof: C71 and C72 composed through the JSON encoding of the whole experiment
- Status: proved
- Theorems: `C97_experiment` (Conf2Props.v), `C97_method_refuted` (Conf2Props.v)

### C98 Initial state of simulations

A state set on a closed system is the one every simulation starts from, until it is changed; without one the ground state is used. With open system dynamics a real state vector becomes its projector, and a density matrix or its stacked columns the density matrix, whether the dynamics are switched on before or after. (Complex amplitudes are not conjugated, states of a wrong size are dropped silently, switching back keeps the matrix and the default state has a different shape with and without the init_ground task: refuted.)

- Quantified over: all dimensions and states
- Code: c3/model.py: set_init_state, update_init_state, get_ground_state, get_init_state, set_lindbladian
- Model: `TrajModel.v`
- Proof: case analysis of the branches of set_init_state and get_init_state; counterexamples on a qubit
- Status: proved
- Theorems: `C98_closed_kept` (TrajProps.v), `C98_read_twice` (TrajProps.v), `C98_default_ground` (TrajProps.v), `C98_open_pure` (TrajProps.v), `C98_open_mixed` (TrajProps.v), `C98_complex_ket_refuted` (TrajProps.v), `C98_wrong_size_refuted` (TrajProps.v), `C98_switch_back_refuted` (TrajProps.v), `C98_default_shape_refuted` (TrajProps.v)

### C99 Trajectories of gate sequences

compute_states on properly sampled gates succeeds, starts in the initial state and returns one state per sample; running a sequence in two parts gives the same states; compute_final_state returns the last of them; along density matrix trajectories trace and Hermiticity are conserved; an undefined gate raises; the times of a second gate continue those of the first. (From the third gate on the times restart, the final time is that of the last gate only, and without a sequence both fail: refuted.)

- Quantified over: all gate sequences, solvers, systems and samplings
- Code: c3/experiment.py: compute_states, compute_final_state; c3/libraries/propagation.py: ode_solver, ode_solver_final_state
- Model: `TrajModel.v`
- Proof: induction on the gate sequence over the solver theorems C38 and C43
- Status: proved
- Theorems: `C99_trajectory` (TrajProps.v), `C99_times_two_gates` (TrajProps.v), `C99_split` (TrajProps.v), `C99_final_state` (TrajProps.v), `C99_density` (TrajProps.v), `C99_von_neumann_start` (TrajProps.v), `C99_unknown_gate` (TrajProps.v), `C99_times_three_gates_refuted` (TrajProps.v), `C99_final_time_refuted` (TrajProps.v), `C99_no_sequence_refuted` (TrajProps.v), `C99_complex_ket_refuted` (TrajProps.v)

### C100 Propagation method

An experiment made with the default method computes every propagator with pwc and the folding stack for that gate's number of steps, no matter which state simulations or method changes happened before; unknown method names raise. (A named or user supplied method leaves the folding stacks uncomputed and compute_propagators fails: refuted.)

- Quantified over: all gate sets, resolutions and call histories
- Code: c3/experiment.py: __init__, set_prop_method, _compute_folding_stack, compute_propagators
- Model: `TrajModel.v`
- Proof: induction on the calls; the recomputed dictionary has an entry for the steps of every instruction
- Status: proved
- Theorems: `C100_default_method` (TrajProps.v), `C100_unknown_method` (TrajProps.v), `C100_selected_method` (TrajProps.v), `C100_other_lengths` (TrajProps.v), `C100_named_method_refuted` (TrajProps.v)

### C101 Open system gates keep density matrices

For Hermitian Hamiltonians, any collapse operators and forward times, every time slice, gate and experiment propagator of an open system takes density matrices (Hermitian, positive semidefinite, trace one) to density matrices, with or without frame rotation, for any number of slices. The initial states are density matrices and the populations after any gate sequence are probabilities that sum to one. (The Runge-Kutta solvers do not keep positivity: refuted.)

- Quantified over: all dimensions, Hamiltonians, collapse operators, signals, slice counts and sequences
- Code: c3/libraries/propagation.py: tf_dU_of_t_lind, tf_propagation_lind, pwc, rk4; c3/experiment.py: compute_propagators, evaluate_legacy, populations; c3/libraries/tasks.py: InitialiseGround.initialise
- Model: `PosModel.v`, `EulerModel.v`
- Proof: exp(dt L) is the limit of Euler steps 1 + L dt/m + second order correction, each a sum of sandwiches A rho A+; row sum norms bound the error by const/m
- Status: proved
- Theorems: `C101_slice` (PosProps.v), `C101_dU_of_t_lind` (PosProps.v), `C101_gate` (PosProps.v), `C101_experiment` (PosProps.v), `C101_populations` (PosProps.v), `C101_initial_state` (PosProps.v), `C101_population_functions` (PosProps.v), `C101_rk4_refuted` (PosProps.v)

### C102 Parameter registration

A ParameterMap knows exactly the parameters of the model components, tasks, devices, gate components and the Quantity options of gates, each under its hierarchical name and with its length; model identifiers are those of components, tasks and devices. Setting parameters through the map changes the objects their owners hold and no others. Gates made with add_component always register; a gate assigned later is known after update_parameters. Reading a configuration never changes existing parameters, and a gate with mapto is an independent copy holding the given values. (A device named like a subsystem hides its parameters, names with '-' collide, and a mapto gate is registered under another key and loses a user given ideal: refuted.)

- Quantified over: all models, devices, gate sets, configurations and values
- Code: c3/parametermap.py: __init__, __initialize_parameters, update_parameters, get_parameter, set_parameters, fromdict; c3/signal/gates.py: get_optimizable_parameters, add_component
- Model: `RegModel.v`
- Proof: registrations as one list with last-wins lookup; unique splitting at '-'; heap of Quantity objects, refinement to the dictionary of PMapModel
- Status: proved
- Theorems: `C102_registered` (RegProps.v), `C102_built_gates_register` (RegProps.v), `C102_get_parameter` (RegProps.v), `C102_writes_reach_owners` (RegProps.v), `C102_set_by_contents` (RegProps.v), `C102_update_parameters` (RegProps.v), `C102_config_keeps_others` (RegProps.v), `C102_mapped_gate` (RegProps.v), `C102_same_name_refuted` (RegProps.v), `C102_dash_refuted` (RegProps.v), `C102_mapto_key_refuted` (RegProps.v), `C102_mapto_ideal_refuted` (RegProps.v)

### C103 The counting estimators are likelihoods and the median is a median

neg_loglkh_binom and neg_loglkh_multinom return the negative logarithm of the geometric mean, over the sequences, of the binomial or multinomial probability of the measured counts under the simulated probabilities; the binomial likelihoods of all possible counts add up to one. For whole expected counts neg_loglkh_binom_norm is at least 0 and neg_loglkh_multinom_norm at least -3/2, with equality exactly when the simulation reproduces the data. median_dist returns a median of the absolute differences. A perfect simulation does not score 0 in neg_loglkh_multinom_norm, as its docstring implies: it scores -3/2.

- Quantified over: for every number of sequences, every number of shots, every vector of counts and of probabilities of any number of outcomes
- Code: c3/libraries/estimators.py:27-31; c3/libraries/estimators.py:77-105; c3/libraries/estimators.py:173-203
- Model: `EstModel: binom_log_probModel.v`, `multinom_log_probModel.v`, `neg_loglkh_*Model.v`, `percentile50Model.v`, `median_distModel.v`
- Proof: the log-gamma function is an oracle that is ln(k!) at the integers; m!/k! <= m^(m-k) by induction, sums by induction on the outcomes; sorting by insertion
- Status: proved
- Theorems: `C103_multinom_norm` (EstProps.v), `C103_multinom_norm_offset_refuted` (EstProps.v), `C103_binom_norm` (EstProps.v), `C103_binom_likelihood` (EstProps.v), `C103_multinom_likelihood` (EstProps.v), `C103_binom_normalised` (EstProps.v), `C103_median` (EstProps.v), `C103_median_ignores_outliers_refuted` (EstProps.v)

### C104 Model learning compares every selected data set with a simulation at the candidate's parameters, independently of history, and validates on the unused data

ModelLearning.goal_run(x) returns the mean, weighted by the number of sequences (three times that for the target 'all'), of the goals of the data sets the sampling selects from every data file, in order. The goal of a data set compares its first seqs_per_point results with a simulation that runs with the candidate x in the optimisation map, the data set's own control parameters in the data file's map (which wins where both name a parameter), every other parameter unchanged, and model matrices computed from exactly these parameters. When all data files set the same control parameters the goal at x does not depend on which candidates were evaluated before. A candidate that reproduces the data gets -1/2. learn_model ends with one evaluation on exactly the data sets the optimisation did not use, at the parameters the map then holds. It does not validate the best candidate but the last; with data files that set different parameters the goal depends on history; and when no data is left for validation the result is 0/0.

- Quantified over: all parameter maps, data files, samplings, simulations, algorithms and evaluation histories
- Code: c3/optimizers/modellearning.py:155-242; c3/optimizers/modellearning.py:275-360; c3/optimizers/modellearning.py:181-216; c3/parametermap.py:285-395
- Model: `LearnRunModel: the learner's stateModel.v`, `one_par_sim_valsModel.v`, `goal_runModel.v`, `confirm and learn_model with samplingModel.v`, `simulation and the algorithm as parametersModel.v`
- Proof: relational induction over the loops: two maps that agree outside a set of parameters stay in lock step and agree outside the smaller set left after each assignment; the goal is unfolded into a list of evaluated points
- Status: proved
- Theorems: `C104_history_free` (LearnRunProps.v), `C104_simulated_at` (LearnRunProps.v), `C104_goal` (LearnRunProps.v), `C104_repeatable` (LearnRunProps.v), `C104_validation` (LearnRunProps.v), `C104_perfect` (LearnRunProps.v), `C104_validates_best_refuted` (LearnRunProps.v), `C104_validation_without_data_refuted` (LearnRunProps.v), `C104_different_maps_refuted` (LearnRunProps.v)

### C105 Randomised benchmarking reports the error that belongs to the fitted decay

RB simulates, for every requested length, num_seqs random Clifford sequences closed by their inverse, and averages the probability to return to the ground state. With unitary propagators each sequence yields a probability distribution; with ideal gates every sequence returns to the ground state with certainty, on any qubit of a register and for whatever Cliffords are drawn. The returned error per gate v satisfies (1-v)^4 = (1+r)/2 for the decay rate r that curve_fit found for the averages of the simulated lengths, is 0 exactly at r = 1 and grows when r falls. leakage_RB returns leakage and seepage rates in [0,1] that add up to 1 - r_leak, and orbit_infid lies in [0,1] and is 0 for ideal gates. Limits shown as findings: RB looks for gates named "rx90p[]" and raises KeyError with the names of an Experiment; with one sequence per length it never ends if curve_fit refuses zero errors; after a failed fit leakage_RB counts only the ground state as computational.

- Quantified over: all dictionaries of propagators, register sizes, lengths, numbers and draws of sequences, all behaviours of curve_fit within its bounds, any number of repeated fits
- Code: c3/libraries/fidelities.py:514-590; c3/libraries/fidelities.py:609-750; c3/libraries/fidelities.py:753-790; c3/utils/qt_utils.py:448-491
- Model: `RBModel: rb_lengthsModel.v`, `rb_populationsModel.v`, `rb_rowsModel.v`, `rb_startModel.v`, `rb_moreModel.v`, `rb_fit (fuel counts the fits)Model.v`, `RBModel.v`, `leakage_RBModel.v`, `orbit; curve_fit and the draws are arbitrary functionsModel.v`
- Proof: the data carried by the loop are always pairs of a length and return probabilities of sequences of that length (induction over the fits); C34 and the embedding algebra give perfect return; the error formula from powers of reals
- Status: proved
- Theorems: `C105_estimate` (RBProps.v), `C105_error_of_rate` (RBProps.v), `C105_lengths` (RBProps.v), `C105_log_lengths` (RBProps.v), `C105_populations` (RBProps.v), `C105_perfect` (RBProps.v), `C105_leakage` (RBProps.v), `C105_orbit` (RBProps.v), `C105_gate_names_refuted` (RBProps.v), `C105_one_sequence_refuted` (RBProps.v), `C105_retry_refuted` (RBProps.v)

### C106 A calibration records what it measured and keeps the best measurement

Calibration.optimize_controls, for any algorithm and any evaluation function: every parameter vector the algorithm asks for is passed to eval_func once, in order, as the physical values the vector stands for; the best point left in the parameter map is the first measurement with the smallest goal; dataset.pickle, read back by ModelLearning, contains exactly one entry per measurement, in order, with the parameters, sequences, results, standard deviations and shots of that measurement, and the opt_map; if the run is cut short by an exception the file still holds every completed measurement. Refuted for a second run of the same object: current_best_goal survives into the new log directory, so a run without improvement raises FileNotFoundError and leaves a file that model learning cannot read.

- Quantified over: all parameter maps, sequences of calls by the algorithm (with and without gradients), evaluation functions (stochastic ones included), points of failure
- Code: c3/optimizers/calibration.py:93-129; c3/optimizers/calibration.py:131-186; c3/optimizers/optimizer.py:173-200; c3/optimizers/optimizer.py:243-313
- Model: `CalibModel.v (calib_goalModel.v`, `calib_fctModel.v`, `calib_gradModel.v`, `calibrateModel.v`, `read_pickle)Model.v`
- Proof: invariant over the calls relating the calls made, the pickle file, the log and the parameter map; best point through the invariant of C56
- Status: proved
- Theorems: `C106_calibration` (CalibProps.v), `C106_interrupted` (CalibProps.v), `C106_succeeds` (CalibProps.v), `C106_second_run_refuted` (CalibProps.v)

### C107 Figures for sequences of gates, for final states and for level populations

average_infid_seq returns one minus the product of the average fidelities of all gates. With unitary propagators and all subsystems evaluated the figure exists, is at least the infidelity of every single gate, at most their sum, less than 1, zero exactly when every gate is perfect up to a phase, and does not depend on the order of the gates. With an index that leaves a subsystem out it always raises (refuted: average_infid_set does not). state_transfer_from_states looks only at the last state of a trajectory: for kets it is one minus the modulus of the overlap with the target, between 0 and 1 and zero exactly for equality up to a phase; for density matrices diagonal in the computational basis it is one minus the squared Bhattacharyya coefficient, zero exactly for equal populations; for other density matrices it is wrong (refuted: |+><+| against itself gives -3). population and lindbladian_population of a level are the squared modulus of the corresponding element of the propagator, agree with each other and add up to 1. lindbladian_average_infid, its set version and the two analytical errors per Clifford raise on every input (refuted).

- Quantified over: all propagators, instructions, registers, indices, states, trajectories, levels and targets of any size
- Code: c3/libraries/fidelities.py:350-513; c3/libraries/fidelities.py:793-820; c3/utils/tf_utils.py:388-401
- Model: `Fid2Model average_infid_seqModel.v`, `state_transfer_from_statesModel.v`, `calculate_state_overlapModel.v`, `csqrtModel.v`, `populationModel.v`, `lindbladian_populationModel.v`, `tf_superoper_average_fidelityModel.v`, `project_anyModel.v`, `epc_figureModel.v`
- Proof: induction over the loop gives the product of single figures, bounds by induction on the product; Cauchy-Schwarz for kets; sum of squared differences of square roots for diagonal states; superoperator identity for the level populations
- Status: proved
- Theorems: `C107_sequence_value` (Fid2Props.v), `C107_sequence_bounds` (Fid2Props.v), `C107_sequence_order` (Fid2Props.v), `C107_subset_refuted` (Fid2Props.v), `C107_final_ket` (Fid2Props.v), `C107_final_errors` (Fid2Props.v), `C107_final_diagonal` (Fid2Props.v), `C107_density_refuted` (Fid2Props.v), `C107_population` (Fid2Props.v), `C107_lindbladian_refuted` (Fid2Props.v), `C107_epc_refuted` (Fid2Props.v), `C107_density_value` (Fid2Props.v), `C107_final_columns` (Fid2Props.v), `C107_population_errors` (Fid2Props.v), `C107_epc_evaluates` (Fid2Props.v)

### C108 A compiled optimal control run is the run of the Python code, once

OptimalControl.optimize_controls with the tf.function-compiled goal_run, on a new object: the exception (if any), the logged parameters and goals, the stored gradients, the best goal, the best_point file and the parameters set at the end are those of running goal_run as Python at every call with the evaluation number 1. After the run the object keeps the graph: any change to the fidelity function, to the parameters that are not optimised or to the opt_map that leaves the length of the vector alone has no effect on later goals. A second run of the same object that finds nothing better ends in FileNotFoundError, and the evaluation number in the log stays 1.

- Quantified over: All setups, goal and gradient functions of the parameters, parameter maps, sequences of calls an algorithm may make, and changes between two runs.
- Code: c3/optimizers/optimalcontrol.py:158-227; c3/optimizers/optimizer.py:173-313
- Model: `goal_callModel.v`, `t_runModel.v`, `t_optimizeModel.v`, `reconfigureModel.v`
- Proof: simulation between the compiled state (graph keyed by the vector length, traced setup and parameters) and the plain optimiser state of OptModel, by induction over the calls; the parameters that are not optimised agree, and the optimised ones are overwritten before they are read
- Status: proved
- Theorems: `C108_compiled_run` (TraceProps.v), `C108_changes_ignored_refuted` (TraceProps.v), `C108_second_run_refuted` (TraceProps.v), `C108_failed_first_call` (TraceProps.v)

### C109 A sensitivity analysis sweeps each parameter over its points and logs the goal at exactly that value

When Sensitivity.sensitivity() finishes, every entry of sweep_map was swept once, over its init_point, the probe list and the requested number of equidistant points between its bounds (widened to contain the probes); every logged line holds the unscaled value and the goal that model learning gives when exactly the parameters of this entry have this value and all others keep what the previous sweep left; sweep_end names the entry and holds its last line. The swept parameter is not put back: later parameters are swept with the earlier ones at the end of their intervals. A sweep that beats no earlier sweep leaves no best point in its directory, and without the option init_point nothing is swept.

- Quantified over: all simulations, sampling functions, data files, sweep maps, bounds, options and parameter values
- Code: c3/optimizers/sensitivity.py:49-127; c3/optimizers/optimizer.py:243-275; c3/libraries/algorithms.py:100-159; c3/optimizers/modellearning.py:218-360
- Model: `SensModel: one_sweepModel.v`, `sweepsModel.v`, `sensitivity on top of LearnRunModel.goal_run and OptModel.sweepModel.v`
- Proof: Frame lemma for one evaluation (what it sets and what it leaves), then induction over the points of a sweep and over the sweeps with the values left in between; the findings follow from the same invariant and are shown on a run with two parameters
- Status: proved
- Theorems: `C109_sweeps` (SensProps.v), `C109_leftover_refuted` (SensProps.v), `C109_best_file_refuted` (SensProps.v), `C109_init_point_refuted` (SensProps.v)

### C110 Jobs on the Qiskit backend: one result per circuit, no influence of earlier jobs, and what breaks this

run() on a backend without leftover options and without a state vector sets the given params once, then returns one result per circuit in order: the read-out populations after its gates, starting from the initial state of the model, with the parameters left by the circuits before (a trailing parameter update acts before the gates of its circuit and for all later ones). The results depend only on the current parameter values, not on earlier jobs; circuits without updates give the same results in one job as in separate jobs. A state vector given to a backend that has run a circuit before is exactly the state all circuits start in. (A new backend refuses every state vector, and every later job fails as well; a state vector is silently used again by later jobs, or makes them fail if it was a list; params without opt_map make all later jobs fail and are set later: refuted.)

- Quantified over: all devices, parameter values, option values, circuits, state vectors and sequences of jobs
- Code: c3/qiskit/c3_backend.py:78-98; c3/qiskit/c3_backend.py:218-342; c3/qiskit/c3_backend.py:347-416; c3/qiskit/c3_backend.py:496-589
- Model: `BackendModel: run_circuitModel.v`, `run_circuitsModel.v`, `check_svModel.v`, `update_parsModel.v`, `run as state transformers over an arbitrary parameter storeModel.v`
- Proof: Refinement of the loop to an inductive specification of job results by induction over the circuits (with the invariant that the propagators belong to the parameters); the stuck states by an invariant over arbitrary sequences of jobs
- Status: proved
- Theorems: `C110_job` (BackendProps.v), `C110_history` (BackendProps.v), `C110_separate` (BackendProps.v), `C110_statevector` (BackendProps.v), `C110_first_statevector_refuted` (BackendProps.v), `C110_failed_update_refuted` (BackendProps.v), `C110_sticky_statevector_refuted` (BackendProps.v), `C110_params_without_map_refuted` (BackendProps.v)

### C111 The rk4 propagation method and the usable registered methods

rk4_unitary evolves with the Hamiltonians H(t) = drift + sum of control fields times control Hamiltonians of the samples: for N samples the gate is the time ordered product of (N-1)/2 classical Runge-Kutta steps, each of the length of two samples and using three successive Hamiltonians; the reported times are every second sample; tf_propagation yields the same slices as pwc. It does not cover the last sample(s), ignores the collapse operators of an open system, multiplies generator.resolution at every call without any effect on the samples, and cannot be used by compute_propagators at all: of the registered methods only pwc accepts the five positional arguments passed.

- Quantified over: for all models, signals, resolutions, numbers of calls and all registered names
- Code: c3/libraries/propagation.py:104-243; c3/libraries/propagation.py:518-548; c3/experiment.py:461-479
- Model: `Rk4Model.v (get_hs_of_t_tsModel.v`, `rk4_unitaryModel.v`, `tf_propagationModel.v`, `signatureModel.v`, `enter_method)Model.v`
- Proof: C42's step matrices are identified with the classical Runge-Kutta formula on the driven Hamiltonians, the loop with an ordered product by induction; counting of samples; case analysis over the registry
- Status: proved
- Theorems: `C111_hamiltonians` (Rk4Props.v), `C111_resolution_refuted` (Rk4Props.v), `C111_rk4_unitary` (Rk4Props.v), `C111_short_refuted` (Rk4Props.v), `C111_open_refuted` (Rk4Props.v), `C111_tf_propagation` (Rk4Props.v), `C111_uncontrolled` (Rk4Props.v), `C111_methods_refuted` (Rk4Props.v), `C111_default_enters` (Rk4Props.v)

### C112 Gradient of the model-learning goal

ModelLearning.goal_run_with_grad selects, simulates and stores exactly what goal_run does and returns the same goal; each component of the gradient it returns is the derivative of that goal with respect to the corresponding component of the candidate, provided that tf.GradientTape differentiates the goal of each data set correctly. It is also the derivative of the goal that a later evaluation will see, if every data set overwrites the parameters that the runs before it changed.

- Quantified over: for all data, sampling functions, simulations, parameter maps, candidates and components
- Code: c3/optimizers/modellearning.py:362-446; c3/libraries/estimators.py:160-170
- Model: `LearnGradModelModel.v`
- Proof: the run with gradients is related to the run without by induction on the loops; a run at another candidate is kept in lockstep with the recorded one, so that its goals are the recorded functions at that candidate; then the derivative of a weighted mean (Coquelicot)
- Status: proved
- Theorems: `C112_same_run` (LearnGradProps.v), `C112_gradient` (LearnGradProps.v)

### C113 What an optimal-control run calls

OptimalControl looks a named fidelity up in the library (with the prefix lindbladian_ for an open-system model), uses propagators unless an ODE solver is named, and takes the algorithm from the library. A goal is the fidelity function on the propagators or states computed after the candidate has been assigned, together with the instructions, the subspace index, the dimensions, the evaluation number and the user's keyword arguments, and nothing else. The named fidelities that can be evaluated, and the keyword arguments each needs, are exactly those listed; callbacks are never evaluated.

- Quantified over: for all names, functions, keyword arguments, models, goal functions, subspaces and candidates
- Code: c3/optimizers/optimalcontrol.py:50-145; c3/optimizers/optimalcontrol.py:171-186; c3/optimizers/optimalcontrol.py:200-291; c3/optimizers/optimizer.py:60-65; c3/libraries/fidelities.py:44-806; c3/libraries/algorithms.py:17-26
- Model: `GoalModelModel.v`
- Proof: keyword binding is characterised once for all signatures; the library tables are then decided name by name for arbitrary keyword arguments; the other theorems by case analysis of the constructor and the goal functions
- Status: proved
- Theorems: `C113_keywords` (GoalProps.v), `C113_fidelity` (GoalProps.v), `C113_goal` (GoalProps.v), `C113_usable` (GoalProps.v), `C113_usable_ode` (GoalProps.v), `C113_callbacks` (GoalProps.v), `C113_callbacks_refuted` (GoalProps.v), `C113_unusable_refuted` (GoalProps.v), `C113_mode` (GoalProps.v), `C113_mode_reset_refuted` (GoalProps.v), `C113_subspace` (GoalProps.v), `C113_algorithm` (GoalProps.v), `C113_oneplusone_refuted` (GoalProps.v)

### C114 What the command line does with a configuration

run_cfg works exactly if the configuration names one of six optimisation types, says how to build the experiment (instructions or exp_cfg), leaves for the optimiser only keys its constructor takes and all keys it needs, and no step raises. Then the steps are done in a fixed order: read model, generator, instructions, experiment; set the gates and the optimisation map (exp_opt_map after gateset_opt_map); build the optimiser; load the initial point; run. The optimiser runs at most once, last, never with debug, and only when all steps before it worked. An unknown or missing key stops before anything is loaded or run. Refuted: the announced quick setup, adjust_exp, and a list as initial_point never work; confirm does what C3 does; ModelLearning needs state_labels in spite of its default.

- Quantified over: all configurations (any keys and values), all outcomes of the steps, both settings of debug
- Code: c3/main.py:26-127; c3/optimizers/optimalcontrol.py:50-69; c3/optimizers/modellearning.py:51-91; c3/optimizers/optimizer.py:51-53
- Model: `MainModel.run_cfg setup maps build initial adjustModel.v`
- Proof: each part is shown to be a list of steps with an end; sequencing of such programs; the dictionary minus the popped keys is a filter
- Status: proved
- Theorems: `C114_success` (MainProps.v), `C114_run_last` (MainProps.v), `C114_arguments` (MainProps.v), `C114_needed` (MainProps.v), `C114_type` (MainProps.v), `C114_quick_refuted` (MainProps.v), `C114_adjust_refuted` (MainProps.v), `C114_initial_refuted` (MainProps.v), `C114_confirm_refuted` (MainProps.v), `C114_labels_refuted` (MainProps.v)

### C115 The quick setup drives every qubit on resonance

Instruction.quick_setup puts a Gaussian envelope and a carrier on a channel such that, for every sideband and every sampling, local oscillator, waveform generator and mixer together put out a pulse at exactly the frequency asked for: the carrier is lowered by what the envelope adds. It works exactly for gate times and conversion factors of the same sign on an existing channel, and the amplitude can be optimised between 0 and three times its value. Experiment.quick_setup creates exactly the configured gates, each on the drive lines of its qubits, with the gate times configured and at the frequencies of the qubits; file names are relative to the configuration file. Refuted: absolute file names work without a directory; the chosen propagation method is kept; two qubits on one drive line are both driven.

- Quantified over: all configurations, models, frequencies, gate times, conversion factors, sidebands, time grids
- Code: c3/signal/gates.py:372-403; c3/experiment.py:124-212; c3/signal/pulse.py:36-62; c3/signal/pulse.py:245-262; c3/generator/devices.py:914-939
- Model: `QuickModel.instr_quick_setup quick_setup make_single make_two make_absoluteModel.v`
- Proof: the quantities built are computed exactly, the mixer theorem C66 then gives the pulse; loops by induction, the map of instructions by reverse induction
- Status: proved
- Theorems: `C115_pulse` (QuickProps.v), `C115_accepted` (QuickProps.v), `C115_experiment` (QuickProps.v), `C115_paths` (QuickProps.v), `C115_absolute_refuted` (QuickProps.v), `C115_method_refuted` (QuickProps.v), `C115_shared_line_refuted` (QuickProps.v)

### C116 Gradient descent, adaptive scan and the refined evolution strategy visit the points they document

tf_sgd is gradient descent with momentum (heavy ball): with a differentiable goal it makes exactly maxiters steps, calls the goal at both ends of every step (twice per iteration) and returns the last iterate; on a quadratic goal without momentum every coordinate shrinks by 1 - lr*curvature per step, so the default converges for curvatures below 20. maxfun is refused, maxiters required, nothing is evaluated on wrong options. adaptive_scan calls the goal at all probe points in order, then where the sampling library asks, within the smallest interval around bounds and probes. gcmaes tells the strategy the locally optimised samples and stops exactly where cmaes would. Refuted: tf_sgd returns the best point seen; adaptive_scan runs with bounds alone, with numeric probe points, or twice with the same options.

- Quantified over: all goals, gradients, start points, options, iteration counts, library behaviours
- Code: c3/libraries/algorithms.py:163-234; c3/libraries/algorithms.py:237-289; c3/libraries/algorithms.py:593-662
- Model: `AlgoModel.tf_sgd adaptive_scan gcmaesModel.v`
- Proof: the loop is shown to compute iterates satisfying the two-term recurrence by induction; scan by induction on the fuel; the strategy loop by the invariant of C59
- Status: proved
- Theorems: `C116_sgd` (AlgoProps.v), `C116_sgd_options` (AlgoProps.v), `C116_sgd_quadratic` (AlgoProps.v), `C116_sgd_converges` (AlgoProps.v), `C116_last_point_refuted` (AlgoProps.v), `C116_scan` (AlgoProps.v), `C116_scan_inside` (AlgoProps.v), `C116_scan_without_probes_refuted` (AlgoProps.v), `C116_scan_twice_refuted` (AlgoProps.v), `C116_scan_numbers_refuted` (AlgoProps.v), `C116_scan_bounds` (AlgoProps.v), `C116_gcmaes` (AlgoProps.v), `C116_gcmaes_is_cmaes` (AlgoProps.v), `C116_gcmaes_options` (AlgoProps.v)

### C117 Every run has a log directory of its own

log_setup returns a directory that did not exist before the call, exists afterwards, is named <data>/<run name>/<time stamp> (below c3logs in the temporary directory if no data path is given) and is returned to no other call, for any number of processes calling it at the same time in any interleaving. Nothing that existed is lost except the link 'recent' of a data directory, and whatever that link newly points to is an existing directory made by one of these calls. A single process waits while the directory of the current second exists, takes the first free second and sets 'recent' to it; if the link may not be removed it stays and one warning is given. Refuted: a run may be called 'recent'; two equally named runs may start in the same second; all runs stay inside the data directory.

- Quantified over: all file systems, data paths, run names, clocks, numbers of processes and interleavings
- Code: c3/utils/utils.py:11-48; c3/utils/utils.py:51-65
- Model: `LogModel.step turn schedule makedirsModel.v`
- Proof: a seven-part invariant (made directories exist and are owned by one process, links point to them) preserved by every turn; the single-process run computed step by step
- Status: proved
- Theorems: `C117_own_directory` (LogProps.v), `C117_nothing_lost` (LogProps.v), `C117_recent` (LogProps.v), `C117_alone` (LogProps.v), `C117_named_recent_refuted` (LogProps.v), `C117_race_refuted` (LogProps.v), `C117_link_denied` (LogProps.v), `C117_inside` (LogProps.v), `C117_absolute_refuted` (LogProps.v), `C117_default` (LogProps.v)

### C118 The TensorBoard file holds the running minimum

An optimiser with a TensorBoardLogger writes at the start every optimised name with its value at step 0. During a run with numeric goals exactly those evaluations are in the file, in order, whose goal is not above any earlier goal; each is written completely: every name with the value of its group, the goal, the gradient cut off at +-3, further floats as scalars and lists as histograms. Any other value type raises. replace_logdir sets the directory with every colon replaced and changes nothing in the file system but one link and one empty directory. Refuted: an open-loop optimisation can be logged (KeyError: its status has no time); a NaN goal does not disturb the minimum; parameters with several values can be logged; replace_logdir tells the loggers and removes the link of the data directory.

- Quantified over: all parameter maps, statuses, runs of any length, file systems
- Code: c3/optimizers/optimizer.py:335-425; c3/optimizers/optimizer.py:67-92; c3/optimizers/optimizer.py:195-200
- Model: `LoggerModel.tb_log tb_run replace_logdirModel.v`
- Proof: invariant over the prefixes of the run: the best level is the minimum of the goals so far, the file is the selection
- Status: proved
- Theorems: `C118_written` (LoggerProps.v), `C118_running_minimum` (LoggerProps.v), `C118_open_loop_refuted` (LoggerProps.v), `C118_nan_refuted` (LoggerProps.v), `C118_array_refuted` (LoggerProps.v), `C118_errors` (LoggerProps.v), `C118_start` (LoggerProps.v), `C118_replace_logdir` (LoggerProps.v), `C118_stale_link_refuted` (LoggerProps.v), `C118_loggers_refuted` (LoggerProps.v)

### C119 The log reader shows what was stored

The table of c3's log reader lists every optimised name once, in the order of the parameter map; the first name of a group with the stored value and gradient (0 if none is stored) and the unit of the group, its equivalents with ditto marks; above it stored goal and time. A file with too few values raises IndexError. Refuted: the watch mode follows the file (it shows the first content for ever, from the second refresh on with goal -1 at time 0); points with array parameters can be shown.

- Quantified over: all stored points, numbers of groups and names, numbers of refreshes
- Code: c3/utils/log_reader.py:12-71; c3/utils/utils.py:96-98
- Model: `LoggerModel.show_table table_rows watchModel.v`
- Proof: induction over the groups and over the refreshes
- Status: proved
- Theorems: `C119_table` (LoggerProps.v), `C119_names` (LoggerProps.v), `C119_watch_refuted` (LoggerProps.v), `C119_array_refuted` (LoggerProps.v), `C119_incomplete` (LoggerProps.v)

### C120 Devices with random noise

The noisy local oscillator gives, for every sample, amplitude times cosine and sine of a phase: amplitude noise scatters the amplitude around 1, phase noise the phase around that of the carrier, frequency noise makes the phase a random walk around it; every sample uses its own random numbers; without amplitude noise the samples stay on the unit circle; with all random numbers 0 it is the noiseless oscillator; negative scales raise ValueError. Noise devices keep the time points and return every entry plus the noise recorded beside it; white noise is drawn per sample, constant noise once per component; pink noise is the amplitude times the sum of two-state fluctuators, each flipped at the steps at which the number drawn for it was below the inverse of its rate, so it takes at most n+1 equidistant values. Refuted: all noises given are applied; the slowest pink fluctuator has a rate equal to the number of samples.

- Quantified over: all random number streams, scales, signals, grids, numbers of fluctuators and carriers
- Code: c3/generator/devices.py:1073-1130; c3/generator/devices.py:964-1035
- Model: `NoiseModel.lo_component lo_noisy noise_process pink_noiseModel.v`
- Proof: closed form of each loop by induction over the samples with the number of draws as index; dictionary invariant for the process loop
- Status: proved
- Theorems: `C120_oscillator` (NoiseProps.v), `C120_negative` (NoiseProps.v), `C120_carriers` (NoiseProps.v), `C120_quiet` (NoiseProps.v), `C120_unit_circle` (NoiseProps.v), `C120_ignored_refuted` (NoiseProps.v), `C120_process` (NoiseProps.v), `C120_fresh_numbers` (NoiseProps.v), `C120_process_total` (NoiseProps.v), `C120_white_and_constant` (NoiseProps.v), `C120_pink` (NoiseProps.v), `C120_pink_levels` (NoiseProps.v), `C120_slow_refuted` (NoiseProps.v)

### C121 The high pass filter

HighpassFilter.process returns in-phase and quadrature signals of the same length and time points, the convolution of the input (0 outside) with a symmetric kernel that is 1 in the middle and minus the normalised windowed sinc elsewhere; the number of taps is the smallest odd number not below 4 over the relative rise time. Refuted: a constant signal is removed (it comes out divided by the sum of the windowed sinc, never as 0); short signals are filtered (fewer samples than taps: returned unchanged); cutoff alone is enough (KeyError without rise_time).

- Quantified over: all signals, cutoffs, rise times, resolutions
- Code: c3/generator/devices.py:792-904
- Model: `HighpassModel.highpass kernel hp_convolve tapsModel.v`
- Proof: index arithmetic of the padding for odd kernels; sum of the kernel computed by splitting off the middle tap; symmetry of sinc and window
- Status: proved
- Theorems: `C121_filter` (HighpassProps.v), `C121_taps` (HighpassProps.v), `C121_constant_refuted` (HighpassProps.v), `C121_short_refuted` (HighpassProps.v), `C121_rise_time_refuted` (HighpassProps.v), `C121_degenerate` (HighpassProps.v)

### C122 The piecewise constant solver converges to the Schroedinger equation

For a closed system whose drive fields change by at most l_k per unit of time, the propagator computed by pwc from the fields sampled in the middle of N slices of length dt differs from the exact solution U(T) of i dU/dt = H(t) U, H(t) = H0 + sum_k c_k(t) H_k, by at most (sum_k l_k |H_k|) T dt / 4 in the Euclidean norm, and populations of a normalised state by at most twice that. Hence for given fields and duration every precision is reached by all fine enough resolutions, for every batch size; for constant fields the result is exact at every resolution and equals exp(-i H T).

- Quantified over: all models, dimensions, numbers of drive lines, fields with bounded slope, resolutions, durations, batch sizes, solutions and states
- Code: c3/libraries/propagation.py:258-340; c3/utils/tf_utils.py:126-166
- Model: `hamiltonianModel.v`, `schroedingerModel.v`, `sampledModel.v`, `speed (specification)Model.v`, `pwc_controlledModel.v`
- Proof: mexp is differentiated as a power series; in each slice the distance between exact solution and exponential is bounded by a mean value inequality for the Euclidean norm, unitaries keep it, and the slices are summed by induction over the time ordered product of C82; the exact solution is unitary because U+U has derivative 0
- Status: proved
- Theorems: `C122_error_bound` (ConvProps.v), `C122_population_error` (ConvProps.v), `C122_convergence` (ConvProps.v), `C122_constant` (ConvProps.v)

### C123 The ODE solvers converge to the equation of motion

Let the fields on the drive lines be Lipschitz, sampled N times at distance T/N from t0 on, and let x be the solution of the equation of motion (Schroedinger, von Neumann, or the master equation with the collapse operators of the model) with the Hamiltonian drift + sum c_k(t) H_k from the given initial state. Then every state ode_solver returns for each of rk4, rk38, rk5 and tsit5 differs from x at the end of its step by at most a constant, which does not depend on N, times T/N, plus (for tsit5 only) a floor of 1e-13 times this constant because its decimals are rounded. For rk4, rk38 and rk5 the error goes to zero as N grows. ode_solver_final_state returns the last of these states.

- Quantified over: all dimensions, Hamiltonians, collapse operators, Lipschitz fields, times, initial states, solvers, step functions, numbers of samples
- Code: c3/libraries/propagation.py:688-905; c3/utils/tf_utils.py:521-559; c3/model.py:691-698
- Model: `PropModel.ode_solverModel.v`, `PropModel.ode_solver_final_stateModel.v`
- Proof: OdeConvProofs.v writes the solvers as tableaus and bounds the stages, the exact step by the mean value inequality of MDeriv.v; OdeGlobalProofs.v adds the errors up (discrete Gronwall); OdeConvProps.v bounds the three right-hand sides and the interpolation and uses C43
- Status: proved
- Theorems: `C123_error_bound` (OdeConvProps.v), `C123_convergence` (OdeConvProps.v), `C123_limit` (OdeConvProps.v)

### C124 The optimisation goals measure the physical gate

For a closed system, an experiment that computes its propagators with the piecewise constant solver returns for every gate a matrix within (speed of the Hamiltonian) x (gate length) x (slice length) / 4 of the propagator of the Schroedinger equation for the continuous fields, seen in the same rotating frame. The values of unitary_infid_set, average_infid_set and state_transfer_infid_set on the simulated propagators differ from their values on the physical propagators by at most 2 e / sqrt d, 2 sqrt d e / (d + 1) and e, where e bounds that distance and d = 2^(number of index qubits). So a goal reached in simulation is reached by the physical device up to an explicit error that vanishes with the slice length.

- Quantified over: all models with Hermitian drift and control Hamiltonians, all gate sets, all Lipschitz fields, all slice lengths, all dims and computational subspaces, all unitary ideal gates and initial states
- Code: c3/experiment.py:440-534; c3/libraries/fidelities.py:86-149; c3/libraries/fidelities.py:154-222; c3/libraries/fidelities.py:290-350
- Model: `ExpModel.compute_propagatorsModel.v`, `FidModel.unitary_infid_set average_infid_set state_transfer_infid_setModel.v`, `physical_gate (specification)Model.v`
- Proof: C122 bounds the propagator; the computational block is a submatrix, so its distance is no larger; Cauchy-Schwarz bounds the overlaps; the set figures are means (C48)
- Status: proved
- Theorems: `C124_unitary_infid_lipschitz` (GoalConvProps.v), `C124_average_infid_lipschitz` (GoalConvProps.v), `C124_state_transfer_lipschitz` (GoalConvProps.v), `C124_propagators_are_physical` (GoalConvProps.v), `C124_goals_are_physical` (GoalConvProps.v)

### C125 C3 gates in Qiskit circuits mean the same to C3 and to Qiskit

The nine rotation classes of c3_gates have exactly the matrices of the C3 gates of the same names. A circuit of such gates on a register of any size does in Qiskit (qubit 0 least significant) what the product of the gates of get_perfect_gates does in C3 (qubit 0 most significant), basis state by basis state. For gates on several qubits, Qiskit does with the qubits in an order what C3 does with the targets in the reverse order; gates that are symmetric in their qubits (iswap, cz, ccz) agree, the cross-resonance gates and cx, crxp, crzp do not. get_perfect_gates returns exactly the gates asked for; an unknown name is an error.

- Quantified over: all register sizes, all circuits, all gate matrices and target lists without repetition
- Code: c3/qiskit/c3_gates.py:12-115; c3/experiment.py:409-438; c3/libraries/constants.py:50-89; c3/signal/gates.py:140-162
- Model: `QGateModel.gate_class qiskit_embed qiskit_circuit get_perfect_gates sequence_productModel.v`
- Proof: the two numberings of basis states are related by reversing the label; entries of embedded gates by C30; products by reindexing the sum over basis states; induction over the circuit
- Status: proved
- Theorems: `C125_reversed_targets` (QGateProps.v), `C125_circuits_with_reversed_targets` (QGateProps.v), `C125_rotations` (QGateProps.v), `C125_perfect_gates` (QGateProps.v), `C125_rotation_circuits` (QGateProps.v), `C125_symmetric_gates` (QGateProps.v), `C125_symmetric_table` (QGateProps.v), `C125_two_qubit_refuted` (QGateProps.v), `C125_crxp_class` (QGateProps.v)

### C126 Slepian pulses are symmetric, flat between their ramps and bounded; plateau and delta pulses land where asked

slepian_fourier: for any coefficients (cosine and sine) the pulse is symmetric about t_final/2, equals offset/amp outside and at the ends of the window of length width, and is constant strictly between rise and fall. With a positive sample the largest value is 1; with coefficients that are not negative all values lie between offset/amp and 1. Scaling all coefficients by a positive number changes nothing. It fails exactly for no sample, amp = 0 or a largest sample 0. pwc_shape_plateau with samples from time 0 is the first half of pwc_shape, then 1 for width - T, then the second half, and 0 outside [0, width]. delta_pulse is 1 exactly at the samples nearest to 1 ns after a listed time. flattop_risefall_1ns is flattop_risefall with 1 ns and overwrites the caller's rise time. Findings: negative coefficients give values above 1; the pulse has a notch at the two ends of the flat part; the plateau sits at half the length of the samples whatever t_bin_start, has height 1 whatever the samples and a notch at its end; delta_pulse comes one sample late on a nanosecond grid; flattop_risefall and the gaussians return real numbers and cannot be multiplied with the mask.

- Quantified over: all times, coefficients, widths, rise times, offsets, amplitudes, samples and parameter dictionaries
- Code: c3/libraries/envelopes.py:25-34; c3/libraries/envelopes.py:71-101; c3/libraries/envelopes.py:128-139; c3/libraries/envelopes.py:330-370; c3/signal/pulse.py:113-141
- Model: `EnvMoreModel.slepian_fourierModel.v`, `pwc_shape_plateauModel.v`, `delta_pulseModel.v`, `flattop_risefall_1nsModel.v`
- Proof: periodicity of cos and sin for the mirror images, a maximum argument for the scaling, case analysis at the branch points, induction over the listed times
- Status: proved
- Theorems: `C126_slepian_symmetric` (EnvMoreProps.v), `C126_slepian_outside` (EnvMoreProps.v), `C126_slepian_flat` (EnvMoreProps.v), `C126_slepian_peak` (EnvMoreProps.v), `C126_slepian_range` (EnvMoreProps.v), `C126_slepian_relative` (EnvMoreProps.v), `C126_slepian_negative_refuted` (EnvMoreProps.v), `C126_slepian_notch_refuted` (EnvMoreProps.v), `C126_slepian_fails` (EnvMoreProps.v), `C126_plateau` (EnvMoreProps.v), `C126_plateau_start_refuted` (EnvMoreProps.v), `C126_plateau_height_refuted` (EnvMoreProps.v), `C126_plateau_end` (EnvMoreProps.v), `C126_plateau_end_refuted` (EnvMoreProps.v), `C126_delta` (EnvMoreProps.v), `C126_delta_refuted` (EnvMoreProps.v), `C126_simple` (EnvMoreProps.v), `C126_flattop_1ns` (EnvMoreProps.v), `C126_real_envelopes_refuted` (EnvMoreProps.v)

### C127 The tomography sequences determine a two-qubit gate completely

two_qubit_gate_tomography(gate) returns 256 sequences of five gates with the gate under test in the middle. With perfect preparation and analysis gates, from the ground state, the populations evaluate returns for all sequences are the same for two gates of an open system (superoperators that keep Hermitian matrices Hermitian) if and only if the two superoperators are equal, and the same for two unitary gates of a closed system if and only if they are equal up to a phase. Finding: the sequences use the name Id, which the gate table does not have, so instructions with these names get an ideal gate on fewer qubits.

- Quantified over: all gate names, all pairs of Hermiticity-preserving 16x16 superoperators and of 4x4 unitaries, all dictionaries of propagators with perfect one-qubit gates
- Code: c3/utils/qt_utils.py:337-361; c3/experiment.py:273-302; c3/experiment.py:603-624
- Model: `TomoModel.two_qubit_gate_tomography with FidModel.evaluate_legacyModel.v`
- Proof: the measured populations are a four-linear form of 2x2 matrices; the four prepared states and the measured projectors span them, so the form determines all 256 entries
- Status: proved
- Theorems: `C127_sequences` (TomoProps.v), `C127_tomography_complete` (TomoProps.v), `C127_tomography_unitary` (TomoProps.v), `C127_names_refuted` (TomoProps.v)

### C128 A model in a basis given by the user

Model_basis_change with a unitary U_transform whose vectors each have a component of weight above 1/2 with nonzero real part works in the basis of exactly these vectors, each labelled by its largest component and with the sign that makes that component's real part positive; its transformation is unitary. The propagator of a closed system is the bare one seen from this basis: the absolute values of its entries are those between the given vectors. Giving the model its own basis back changes nothing; without U_transform (or for the identity) it has the bare operators; with ordered=False the matrix is used as it is. Refuted: a change of basis that permutes states or flips signs is undone; a unitary with a purely imaginary largest component (a phase gate) drops the level from every operator; a matrix that is not unitary is accepted and changes the energies.

- Quantified over: all dimensions, all unitary matrices with labelled columns, all operators, control signals and folding stacks; all signed permutations
- Code: c3/model.py:700-736; c3/model.py:453-491; c3/model.py:504-534
- Model: `basis_changeModel.v`, `basis_operatorsModel.v`, `basis_viewModel.v`
- Proof: permutation lemmas of C78 for an arbitrary unitary, propagation by C81; permutations, a phase gate and a multiple of the identity for the findings
- Status: proved
- Theorems: `C128_relabelled` (BasisProps.v), `C128_unordered` (BasisProps.v), `C128_default` (BasisProps.v), `C128_default_operators` (BasisProps.v), `C128_propagation` (BasisProps.v), `C128_stable` (BasisProps.v), `C128_relabelling_refuted` (BasisProps.v), `C128_phase_refuted` (BasisProps.v), `C128_unchecked_refuted` (BasisProps.v)

### C129 Flux dependence of the C-shunt flux qubit

As long as the parameters stay the same, get_frequency, get_anharmonicity and get_Hamiltonian of a CShuntFluxQubit do not depend on which methods were called before, how often and with which signals: the minimum of the potential without signal is the one scipy's search finds, at the 49 grid points of a period the one found at that flux, between them a weighted mean of the neighbours, and it is periodic in the flux quantum; the Hamiltonian is that of a qubit with the frequency and anharmonicity at the minimum; a signal raises NotImplementedError. For gamma = 0 it is a transmon with frequency sqrt(8 EJ EC) - EC and anharmonicity -EC at every flux. Refuted: after a parameter change the table of minima is kept: the anharmonicity (and from the second update on also the frequency) is computed at the minimum of the old parameters, so the third level is off by up to the charging energy; a change that keeps the potential at 0, such as reversing the flux, is not noticed at all; the anharmonicity at a flux signal is taken at the minimum without signal.

- Quantified over: all parameters, all sequences of calls with all signals, all minimum searches, all embeddings and dimensions
- Code: c3/libraries/chip.py:787-826; c3/libraries/chip.py:834-868; c3/libraries/chip.py:886-910; c3/libraries/chip.py:728-729
- Model: `flux_cacheModel.v`, `minimum_phiModel.v`, `get_frequencyModel.v`, `get_anharmonicityModel.v`, `flux_hamiltonianModel.v`, `flux_runModel.v`
- Proof: invariant of the cache over call sequences; interpolation lemma; level energies by C93; an explicit search for the finding
- Status: proved
- Theorems: `C129_minimum` (FluxProps.v), `C129_hamiltonian` (FluxProps.v), `C129_methods` (FluxProps.v), `C129_renewed` (FluxProps.v), `C129_signal` (FluxProps.v), `C129_transmon` (FluxProps.v), `C129_stale` (FluxProps.v), `C129_unnoticed` (FluxProps.v), `C129_signal_anharmonicity` (FluxProps.v), `C129_stale_refuted` (FluxProps.v)

### C130 Stored unitaries

With store_unitaries a run makes <logdir>unitaries/ and, for evaluation number i = 0, 1, ... with goal g, the folder eval_<i>_<g>/ holding in Us.pickle exactly the propagators the experiment has after that evaluation (those computed in it, or with overwrite_propagators off the latest one of every gate), and one text file per gate, named after it with ':' replaced by '.'; two evaluations never share a folder, every evaluation is in the log and no other file changes. Without store_unitaries nothing is written. Refuted: OptimalControl can store unitaries at all (its compiled goal function leaves symbolic tensors: the first evaluation raises and leaves a broken file); a run can be repeated in its directory; gates whose names differ in ':' and '.' have separate files; gate names with a slash; the log directory may be given without a slash at its end; log_best_unitary keeps the stored best parameters.

- Quantified over: all file systems, log directories, goals, propagators, numbers of evaluations and gate names without slashes
- Code: c3/experiment.py:526-531; c3/experiment.py:560-602; c3/optimizers/optimizer.py:160-199; c3/optimizers/optimalcontrol.py:163-227
- Model: `StoreModelModel.v`
- Proof: file system as a set of directories and a map from paths to contents; induction over the evaluations with the set of written folders as invariant; folder names are injective because the counter is printed in digits before an underscore
- Status: proved
- Theorems: `C130_file_names` (Store2Props.v), `C130_one` (StoreProps.v), `C130_stored` (StoreProps.v), `C130_default` (StoreProps.v), `C130_kept` (StoreProps.v), `C130_own_folder` (StoreProps.v), `C130_disabled` (StoreProps.v), `C130_not_enabled` (StoreProps.v), `C130_compiled_refuted` (StoreProps.v), `C130_rerun_refuted` (StoreProps.v), `C130_collision_refuted` (StoreProps.v), `C130_slash_name_refuted` (StoreProps.v), `C130_slash_refuted` (StoreProps.v), `C130_best_unitary_refuted` (StoreProps.v)

### C131 Printed parameters

str_parameters and print_parameters show the groups of the optimisation map in order: the first name (filled up to 38 characters) with its value, then the other names of the group one per line and a blank line. A value with a unit is printed with three decimals and a metric prefix which together give value/prefactor to a relative precision of 1/2000 for magnitudes between 1e-21 and 1e24; numbers printed alike differ by at most a thousandth. An empty group raises IndexError, an unknown first name KeyError, nothing else. Refuted: the values of all members are shown; print_parameters shows parameters with more than four values; the sign is always shown.

- Quantified over: all parameter maps, optimisation maps, quantities, units and values
- Code: c3/parametermap.py:458-499; c3/c3objs.py:222-232; c3/utils/utils.py:66-105
- Model: `PrintModelModel.v`
- Proof: rounding to thousandths bounded by one half, exactness of eng_num (C77), decimal texts are injective, induction over the groups
- Status: proved
- Theorems: `C131_number` (PrintProps.v), `C131_readable` (PrintProps.v), `C131_quantity` (PrintProps.v), `C131_list` (PrintProps.v), `C131_print` (PrintProps.v), `C131_equivalents_refuted` (PrintProps.v), `C131_hidden_refuted` (PrintProps.v), `C131_sign_refuted` (PrintProps.v)

### C132 Fidelities and expectation values of density matrices

tf_measure_operator(M, rho) is <psi|M|psi> for rho = |psi><psi|, linear in rho, real for Hermitian M and rho, the same in both pictures (moving rho by U is moving M by U^+); outcomes K^+ K have non-negative values that add up to one when the effects add up to the identity. tf_dmket_fid(rho, psi) is sqrt <psi|rho|psi>, between 0 and 1, and equals tf_ketket_fid for pure rho. tf_dmdm_fid(rho, sigma) equals tf_dmket_fid for a pure rho, the overlap for two pure states, one for equal density matrices, and is unchanged by a common unitary. These fidelities are amplitudes, not probabilities, unlike tf_unitary_overlap.

- Quantified over: all dimensions, density matrices, observables, state vectors and unitaries; all matrix root functions that return the positive root
- Code: c3/utils/tf_utils.py:99-116; c3/utils/tf_utils.py:311-327
- Model: `DmModel: tf_measure_operatorModel.v`, `tf_sqrtModel.v`, `tf_dmket_fidModel.v`, `tf_dmdm_fidModel.v`
- Proof: linear algebra over finite complex sums; positive square roots of matrices are proved to be unique, so the assumption on tf.linalg.sqrtm determines it on positive matrices
- Status: proved
- Theorems: `C132_root` (DmProps.v), `C132_expectation` (DmProps.v), `C132_real` (DmProps.v), `C132_mixture` (DmProps.v), `C132_picture` (DmProps.v), `C132_probability` (DmProps.v), `C132_complete` (DmProps.v), `C132_ket` (DmProps.v), `C132_pure` (DmProps.v), `C132_bounded` (DmProps.v), `C132_unique_root` (DmProps.v), `C132_mixed_pure` (DmProps.v), `C132_two_pure` (DmProps.v), `C132_self` (DmProps.v), `C132_invariant` (DmProps.v), `C132_amplitude_refuted` (DmProps.v)

### C133 Backends of the Qiskit provider

C3Provider() makes one backend per class in SIMULATORS and fails if one cannot be made. backends() lists one backend per name, backends(name) and get_backend(name) give the one made from the last class with that name and raise QiskitBackendNotFoundError for other names. Repeated requests to one provider give the same backend, so an experiment set on one handle is the experiment of the other; another provider has backends of its own with an empty experiment. filters is ignored. C3Options.to_dict() shows exactly the five documented options with their values and raises AttributeError when one is missing.

- Quantified over: all lists of backend classes, names, filters and option sets
- Code: c3/qiskit/c3_provider.py:8-95; c3/qiskit/c3_options.py:22-36; c3/qiskit/c3_backend.py:71-81
- Model: `ProviderModel: get_backend_instanceModel.v`, `verify_loopModel.v`, `provider_initModel.v`, `backendsModel.v`, `get_backendModel.v`, `set_c3_experimentModel.v`, `options_to_dictModel.v`
- Proof: induction over the list of classes with a separate specification of which class a name belongs to; object identities as allocation numbers
- Status: proved
- Theorems: `C133_named` (ProviderProps.v), `C133_refused` (ProviderProps.v), `C133_all` (ProviderProps.v), `C133_shared` (ProviderProps.v), `C133_separate` (ProviderProps.v), `C133_filters_refuted` (ProviderProps.v), `C133_only` (ProviderProps.v), `C133_several` (ProviderProps.v), `C133_same_name_refuted` (ProviderProps.v), `C133_options` (ProviderProps.v), `C133_options_missing` (ProviderProps.v)

### C134 Options and artificial noise of the evolution strategy

cmaes reads noise, batch_noise, init_point, spread, stop_at_convergence and stop_at_sigma from the options, with defaults 0, 0, False, 0.1, off and off, and gives all other options to the library. Without noise the library is told the goals themselves and no random number is drawn; with noise each goal gets its own error noise * randn. batch_noise never changes a goal. The options are removed from the dictionary the optimiser keeps, so a second run uses the defaults. cma_pre_lbfgs uses the options of each stage first and the common ones otherwise; in a second run the evolution strategy keeps the common options but loses its own, and the common options of the evolution strategy also reach the gradient search.

- Quantified over: all option dictionaries, goal functions, random sequences, numbers of samples and repeated runs
- Code: c3/libraries/algorithms.py:491-516; c3/libraries/algorithms.py:541-557; c3/libraries/algorithms.py:569-589; c3/optimizers/optimalcontrol.py:178-185
- Model: `CmaOptModel: pop_optModel.v`, `cma_readModel.v`, `sample_loopModel.v`, `generationModel.v`, `pre_lbfgsModel.v`
- Proof: option reading by a specification of each pop; induction over the samples with an explicit stream of random numbers; the dictionary after a run is part of the result
- Status: proved
- Theorems: `C134_settings` (CmaOptProps.v), `C134_second_run_refuted` (CmaOptProps.v), `C134_noiseless` (CmaOptProps.v), `C134_noise` (CmaOptProps.v), `C134_batch_noise_refuted` (CmaOptProps.v), `C134_combined` (CmaOptProps.v), `C134_combined_again` (CmaOptProps.v), `C134_combined_again_refuted` (CmaOptProps.v), `C134_foreign_refuted` (CmaOptProps.v)

### C135 The propagation step with a separate drift

pwc_trott_drift(h0, hks, cflds_t, dt) computes the drift exp(-i dt h0) exactly from real eigenvectors, and returns drift * exp(-i dt sum_k c_k h_k) * (drift + dt^2/2 [h0, ht]). The drift is therefore applied twice: without control fields the step is exp(-2 i dt h0), which differs from the evolution for every step length. The drift depends on the phase in which the eigenvectors are returned. Unless tensorflow's numpy behaviour is switched on, the function raises AttributeError for all arguments.

- Quantified over: all dimensions, drift Hamiltonians, control Hamiltonians, fields, step lengths and diagonalisations
- Code: c3/libraries/propagation.py:443-457
- Model: `TrottModel: drivenModel.v`, `drift_stepModel.v`, `pwc_trott_driftModel.v`
- Proof: matrix exponentials of diagonalised matrices and of commuting multiples; a separate specification of an eigendecomposition
- Status: proved
- Theorems: `C135_unusable` (TrottProps.v), `C135_drift` (TrottProps.v), `C135_step` (TrottProps.v), `C135_twice` (TrottProps.v), `C135_wrong_refuted` (TrottProps.v), `C135_phase_refuted` (TrottProps.v)

### C136 Changing the signal chains of a generator

set_chains(chains) stores the chains in every case and checks them afterwards. If a channel is refused, the exception is that of the first refused channel; the channels before it have their new device order, the others keep the order they had. A later accepted set of chains repairs the generator completely: generate_signals gives what a generator would give that only ever saw the accepted chains. Until then generate_signals works with the refused chain in the old order, for instance a mixer with one of its two inputs. An empty dictionary changes nothing.

- Quantified over: all generators, chains, refused and accepted changes, channels and device behaviours
- Code: c3/generator/generator.py:52-91; c3/generator/generator.py:172-229
- Model: `ChainModel: set_chainsModel.v`, `check_chainsModel.v`, `check_chainModel.v`, `generate_signalsModel.v`
- Proof: induction over the channels with the state after a failure; independence of the accepted result from the earlier state
- Status: proved
- Theorems: `C136_refused` (Chain2Props.v), `C136_empty_refuted` (Chain2Props.v), `C136_repair` (Chain2Props.v), `C136_refused_used_refuted` (Chain2Props.v)

### C137 The excitation limit and the Hamiltonians read with it

After set_max_excitations(m) with m other than 0, get_Hamiltonian() has one row per state of at most m excitations and holds the elements of the Hamiltonian of the frame in use between them; get_sparse_Hamiltonian() has the full size, with those elements in place and zero elsewhere. A later limit replaces an earlier one and 0 gives the whole Hamiltonian. Findings: without a limit get_sparse_Hamiltonian() fails for lack of a cutter, and after a limit was taken back it fails because the old cutter is still there; get_Hamiltonians() fails under a limit since it cuts the dictionary of controls; get_sparse_Hamiltonians() always fails, since it unpacks the method instead of its result.

- Quantified over: for all dimensions, limits, histories of limits and Hamiltonians
- Code: c3/model.py:198-224; c3/model.py:353-415
- Model: `SparseModel.set_max_excitationsModel.v`, `get_hamiltonianModel.v`, `get_sparse_hamiltonianModel.v`
- Proof: entries through the label enumeration of C31, shapes checked in every product
- Status: proved
- Theorems: `C137_no_limit` (SparseProps.v), `C137_limited_hamiltonian` (SparseProps.v), `C137_sparse_hamiltonian` (SparseProps.v), `C137_last_limit_counts` (SparseProps.v), `C137_sparse_without_limit_refuted` (SparseProps.v), `C137_limit_taken_back_refuted` (SparseProps.v), `C137_hamiltonians` (SparseProps.v), `C137_limited_hamiltonians_refuted` (SparseProps.v), `C137_sparse_hamiltonians_refuted` (SparseProps.v)

### C138 Subsystems without a coupling evolve independently

If the Hamiltonian of a model of two subsystems is the sum of their drifts, each embedded with hilbert_space_kron, and every drive line acts on one of them, then the propagator of the pwc method for a gate is the Kronecker product of the propagators that each subsystem has alone, driven by its own lines only. A subsystem no line drives evolves with its drift. The outcome probabilities of one subsystem, for product and entangled initial states, do not depend on what is driven on the other.

- Quantified over: for all dimensions, Hamiltonians, drive lines in any order, signals, numbers of time slices and batch sizes
- Code: c3/libraries/propagation.py:264-340; c3/utils/qt_utils.py:68-96; c3/model.py:423-440
- Model: `ExpModel.pwc_controlledModel.v`, `HilbertModel.hilbert_space_kronModel.v`
- Proof: slices by exp(A (x) 1 + 1 (x) B) = exp(A) (x) exp(B), products by induction over the time ordered product, probabilities by norm preservation
- Status: proved
- Theorems: `C138_independent` (IndepProps.v), `C138_idle` (IndepProps.v), `C138_no_crosstalk` (IndepProps.v)

### C139 A limit on the number of excitations is exact for dynamics that does not cross it

If no Hamiltonian of a gate connects a state with at most max_excitations excitations and one with more, the propagator pwc computes with the limit set (the Hamiltonians cut, the result blown up) equals, between any two states within the limit, the propagator of the full model, and is zero everywhere else.  The number term, the anharmonicity, the flux (Z) drive and the exchange coupling int_XX + int_YY of any two subsystems conserve the number of excitations, as do their sums and multiples, so they meet the condition for every limit.  int_XX alone does not: it connects the ground state and the state with both subsystems excited.

- Quantified over: all lists of dimensions, limits, numbers of time slices, batch sizes, sampled Hamiltonians, time grids, and pairs of states
- Code: c3/libraries/propagation.py:pwc; c3/utils/tf_utils.py:tf_propagation; c3/model.py:cut_excitations; c3/model.py:blowup_excitations; c3/libraries/hamiltonians.py
- Model: `[pwc_uncontrolled]Model.v`, `[cut_excitations]Model.v`, `[blowup_excitations]Model.v`, `[h_int_XX]Model.v`
- Proof: [respects] is closed under product and the exponential series; the cut is multiplicative on it, so [cut_ordered] carries the time-ordered product; annihilators lower the sum of the label by one.
- Status: proved
- Theorems: `C139_exact_limit` (LimitProps.v), `C139_conserving_respects` (LimitProps.v), `C139_conserving_hamiltonians` (LimitProps.v), `C139_xx_refuted` (LimitProps.v)

### C140 States the Hamiltonians do not connect exchange no population

Sort the basis states into classes in any way.  If neither the drift nor any control Hamiltonian has an element between two classes, then no propagator or partial propagator pwc computes has one, and after any sequence of gates the populations evaluate reports add up, class by class, to those of the initial state.  In particular diagonal Hamiltonians (detunings, flux pulses) change no population, and Hamiltonians that conserve the number of excitations keep the population of every number.

- Quantified over: all classifications, models, signals, numbers of samples, batch sizes, folding stacks, initial states and gate sequences
- Code: c3/libraries/propagation.py:pwc; c3/experiment.py:evaluate_legacy; c3/experiment.py:populations; c3/utils/tf_utils.py:tf_propagation
- Model: `[pwc_controlled]Model.v`, `[evaluate_legacy]Model.v`, `[populations]Model.v`
- Proof: [selects] is closed under sums, products and the exponential series; a unitary matrix that selects acts as a unitary on each masked state.
- Status: proved
- Theorems: `C140_selection_rule` (SectorProps.v), `C140_class_populations` (SectorProps.v), `C140_diagonal` (SectorProps.v), `C140_excitations` (SectorProps.v)

### C141 Pulses played one after the other, backwards, and with an energy offset

The propagator pwc computes for pulses that follow one another is the product of the propagators of the parts, the later one to the left, in closed and open systems, and its list of partial propagators is the concatenation; so a gate may be cut into consecutive gates.  The pulses played backwards with the opposite sign, for the opposite drift, undo the gate.  Adding the same energy to all states multiplies the propagator by the phase exp(-i c T) and changes no population.

- Quantified over: all models, controls, pulse samples, numbers of samples, batch sizes, initial states and offsets
- Code: c3/libraries/propagation.py:pwc; c3/utils/tf_utils.py:tf_propagation_vectorized; c3/utils/tf_utils.py:tf_matmul_n
- Model: `[pwc_controlled]Model.v`, `[tf_matmul_n]Model.v`, `[folding_stack]Model.v`
- Proof: Slices of the joined pulses are those of the parts ([controls_ext]); time-ordered products concatenate by associativity; inverse and offset slice by slice.
- Status: proved
- Theorems: `C141_one_after_the_other` (SplitProps.v), `C141_backwards` (SplitProps.v), `C141_offset` (SplitProps.v)

### C142 Simulated relaxation and dephasing follow the exponential laws of the times given

Open system, one collapse operator, any number of time slices.  For a Qubit with t1 only, while the Hamiltonians commute with its number operator, the mean number of its excitations after a gate of duration T is exp(-T/t1) times that before (for a Transmon exp(-T/(2 t1)): its simulated lifetime is twice the t1 given).  For a Qubit or Transmon with t2star only, while the Hamiltonians are diagonal, the coherence between two basis states is multiplied by exp(-(n - n')^2 T/t2star), n and n' the excitations of that qubit, and by the phase of the difference of the energies; populations do not change.

- Quantified over: all chips, positions of the qubit, times t1 and t2star, pulses that keep the condition, numbers of samples, batch sizes and density matrices
- Code: c3/libraries/chip.py:Qubit.get_Lindbladian; c3/libraries/chip.py:Transmon.get_Lindbladian; c3/utils/tf_utils.py:tf_propagation_lind; c3/libraries/propagation.py:pwc
- Model: `[pwc_controlled]Model.v`, `[lind_slice]Model.v`, `[qubit_lindbladian]Model.v`, `[transmon_lindbladian]Model.v`
- Proof: The observable is a left eigenvector of the generator ([C94_relaxation], [C94_dephasing]); [mexp_row_eigen] carries the eigenvalue through the exponential series, [decays_gate] through the time-ordered product.
- Status: proved
- Theorems: `C142_relaxation` (DecayProps.v), `C142_transmon_relaxation_refuted` (DecayProps.v), `C142_dephasing` (DecayProps.v)

### C143 The master equation without dissipation changes nothing

Simulating a gate with the Lindblad master equation, but without collapse operators, gives the superoperator of the propagator U of the same gate simulated with the Schroedinger equation: rho goes to U rho U^dagger. An experiment built from such gates reports the same populations, and the same errors, for any gate sequences with both settings, when it starts from real amplitudes. (For complex amplitudes the reported populations are wrong, even negative.)

- Quantified over: for all models with Hermitian Hamiltonians, all signals on a common grid, all batch sizes, all gate sequences and all initial states with real amplitudes
- Code: c3/libraries/propagation.py:255-340; c3/libraries/propagation.py:388-430; c3/experiment.py:273-302; c3/utils/tf_utils.py:300-330
- Model: `ExpModel.pwc_controlledModel.v`, `PropModel.lind_sliceModel.v`, `tf_superModel.v`, `FidModel.evaluate_legacyModel.v`
- Proof: the slices are superoperators by the exponential of a sum of commuting operators, their product by induction over the time-ordered product; the experiment by induction over gates
- Status: proved
- Theorems: `C143_gate` (ClosedProps.v), `C143_populations` (ClosedProps.v), `C143_complex_state_refuted` (ClosedProps.v)

### C144 The drive strength estimate depends only on the size of the envelope

After AWG.process for a channel, get_average_amp for that channel returns the mean and the sum of the sizes of the samples of its complex envelope, whatever other channels are processed afterwards; an unknown channel is refused. Changing the phases of all components together leaves the estimate, and multiplying all amplitudes by c multiplies it by |c|. The mean lies between 0 and the largest sample and is 0 only for a drive that is off. (log_shapes fails as soon as there is a waveform to log.)

- Quantified over: for all envelopes, sample rates, times, phases, factors and sequences of processed channels
- Code: c3/generator/devices.py:1159-1197; c3/generator/devices.py:1199-1229; c3/signal/gates.py:341-370
- Model: `AmpModel.get_average_ampModel.v`, `awg_processModel.v`, `log_shapesModel.v`, `DevModel.create_IQModel.v`
- Proof: the samples of I and Q are real and imaginary parts of the envelope; a common phase and factor commute with the sum over components by induction
- Status: proved
- Theorems: `C144_estimate` (AmpProps.v), `C144_unknown` (AmpProps.v), `C144_phase_and_amplitude` (AmpProps.v), `C144_bounds` (AmpProps.v), `C144_log_shapes_refuted` (AmpProps.v)

### C145 Open subsystems without a coupling evolve independently

With the master equation switched on, a gate on a model made of two subsystems without a coupling, where each collapse operator acts on one subsystem, takes a product of density matrices to the product of the density matrices each subsystem reaches alone under its own drive lines. For every state, entangled or not, the reduced state of one subsystem does not depend on what is done to the other or on what the other loses.

- Quantified over: all pairs of subsystems of any dimension, all drive signals on a common time grid, all numbers of slices, all collapse operators, all density matrices
- Code: c3/libraries/propagation.py:255-340; c3/libraries/propagation.py:388-430; c3/model.py:393-430
- Model: `ExpModel.pwc_controlledModel.v`, `PropModel.lind_sliceModel.v`
- Proof: the generators are intertwined by the reordering of stacked density matrices; products of slices by induction; all states by linearity
- Status: proved
- Theorems: `C145_independent` (OpenIndepProps.v), `C145_no_crosstalk` (OpenIndepProps.v)

### C146 The operators of a model follow its settings

After set_dressed, set_lindbladian or update_model returns, whatever calls came before (calls that raised included), the model's parameters are unchanged, its settings are those asked for, and get_Hamiltonians and get_Lindbladians return the drift, the controls and the collapse operators of the current parameters, all bare or all in the dressed frame of the current drift. Two models with the same parameters and settings read the same. Without the master equation the calls always return; with it they return exactly when every subsystem provides its collapse operator.

- Quantified over: all component parameters, all Hamiltonians and collapse operators of any dimension, all states the model can be in, all calls, all eigendecompositions
- Code: c3/model.py:43-57; c3/model.py:311-336; c3/model.py:353-366; c3/model.py:417-451; c3/model.py:493-534
- Model: `SettingsModel: update_modelModel.v`, `set_dressedModel.v`, `set_lindbladianModel.v`, `get_hamiltoniansModel.v`, `get_lindbladiansModel.v`, `constructModel.v`
- Proof: each call is reduced to update_model on the new settings; the stored attributes are computed from an arbitrary state; loops over the subsystems by induction
- Status: proved
- Theorems: `C146_follows` (SettingsProps.v), `C146_closed` (SettingsProps.v), `C146_open` (SettingsProps.v), `C146_constructed` (SettingsProps.v), `C146_frame` (SettingsProps.v), `C146_history` (SettingsProps.v), `C146_before_update` (SettingsProps.v), `C146_failed_switch_refuted` (SettingsProps.v), `C146_resonator_refuted` (SettingsProps.v), `C146_switched_off_refuted` (SettingsProps.v)

### C147 The zero of energy does not matter

Adding a constant to the drift Hamiltonian multiplies every gate of a closed system by the phase exp(-i c T), with T the duration of the gate, for all pulses; with the master equation it changes nothing. Such a phase changes neither unitary_infid, average_infid and state_transfer_infid nor the populations an experiment reports for any gate sequences.

- Quantified over: all models of any dimension, all constants, all pulses on a common time grid, all numbers of slices, all ideal gates, states and gate sequences
- Code: c3/libraries/propagation.py:255-340; c3/libraries/propagation.py:551-585; c3/libraries/fidelities.py:120-184; c3/libraries/fidelities.py:290-311; c3/experiment.py:273-302
- Model: `ExpModel.pwc_controlledModel.v`, `PropModel.lind_sliceModel.v`, `FidModel.unitary_infid average_infid state_transfer_infid evaluate_legacyModel.v`
- Proof: a multiple of the identity commutes with every slice Hamiltonian; phases multiply along the time ordered product; the projection and the populations are homogeneous
- Status: proved
- Theorems: `C147_gate` (ZeroProps.v), `C147_open` (ZeroProps.v), `C147_goals` (ZeroProps.v), `C147_populations` (ZeroProps.v)

### C148 Constant drives are propagated exactly, and idling changes no population

When every line keeps its value over the pulse, the gate of a closed system computed by pwc is exactly exp(-i H T) with H the driven Hamiltonian and T the duration, so that the number of slices does not matter. States of definite energy only collect the phase of their energy, and the mean energy of every state is conserved. With no drive at all and a diagonal (dressed) drift, each level collects the phase of its energy and the populations of every state stay the same.

- Quantified over: all closed models of any dimension with hermitian operators where stated, all constant drives on a common time grid, all numbers of slices, all states
- Code: c3/libraries/propagation.py:114-162; c3/libraries/propagation.py:259-340; c3/libraries/propagation.py:349-380; c3/utils/tf_utils.py:178-215; c3/experiment.py:594-617
- Model: `pwc_controlledModel.v`, `populationsModel.v`
- Proof: The slices of a constant drive are all the same exponential; their time-ordered product is one exponential of the sum; an intertwining lemma gives eigenstates and conservation.
- Status: proved
- Theorems: `C148_exact` (ConstProps.v), `C148_resolution` (ConstProps.v), `C148_eigenstates` (ConstProps.v), `C148_energy` (ConstProps.v), `C148_idle` (ConstProps.v)

## Findings

Places where the code departs from what its documentation or names promise, each with a theorem.

- `C06_arithmetic_pi_units_refuted`: With a pi or 2pi unit the result of the addition is the prefactor times the old value plus the operand: adding zero to a quantity changes its value.
- `C07_swapped_limits_accepted_refuted`: Limits given in the wrong order are not refused: the object is built with other limits than the ones given.
- `C100_named_method_refuted`: an experiment made with a named method, even "pwc", or with a function never computes the folding stacks; compute_propagators then fails for every gate.
- `C101_rk4_refuted`: the Runge-Kutta solvers do not keep density matrices: one rk4 step of three lifetimes takes the excited state to a matrix with a negative population.
- `C102_dash_refuted`: names that contain "-" can give two parameters one identifier; only the second can be reached.
- `C102_mapto_ideal_refuted`: "mapto" drops an ideal matrix the user gave for the original gate.
- `C102_mapto_key_refuted`: a gate created with "mapto" under `key` stores its parameters under `key` followed by the targets of the original, so identifiers made from the key used in the configuration are unknown.
- `C102_same_name_refuted`: a device of the generator that has the name of a subsystem hides all its parameters: they are in no map and cannot be optimised.
- `C103_median_ignores_outliers_refuted`: unlike the other distances, the median does not tell a perfect simulation from one that misses a minority of the points by any amount.
- `C103_multinom_norm_offset_refuted`: the docstring promises probability 1 at the top of the distribution, that is an estimate of 0 for a perfect simulation; the estimate is -3/2, whatever the data and the log-gamma function.
- `C104_different_maps_refuted`: when the data files set different control parameters, a data set is simulated with whatever value the other file left behind, and the goal depends on how many evaluations came before.
- `C104_validates_best_refuted`: `learn_model` validates at the candidate that was evaluated last, not at the best one: `confirm` reads the current parameters of the map and nothing restores the best ones. The control parameters keep the values of the last data set, and `inverse` stays set, so a second `learn_model` optimises on the validation data.
- `C104_validation_without_data_refuted`: when every data set is used for learning, the validation averages over nothing; the goal is 0/0.
- `C105_gate_names_refuted`: RB passes its argument `padding`, "" by default, where single_length_RB expects the qubit, so it looks for gates called "rx90p``". With propagators named like those of an Experiment ("rx90p`0`") it always raises KeyError.
- `C105_one_sequence_refuted`: with one sequence per length all errors are zero. If curve_fit refuses such data, RB never ends: it keeps doubling the lengths of the sequences.
- `C105_retry_refuted`: after a fit that failed, leakage_RB counts only the ground state as computational for the lengths it adds, so the fit no longer sees the population of the two lowest levels: a qubit without any leakage can get a leakage rate.
- `C106_second_run_refuted`: running the same calibration object a second time in a new log directory keeps the best goal of the first run, so without an improvement no best point is written there, the run ends with an exception although all measurements succeeded, and the file it leaves cannot be read for model learning.
- `C107_density_refuted`: the square root is taken element by element, not of the matrix: the superposition |+><+| compared with itself gives infidelity -3.
- `C107_epc_refuted`: the table of ideal Clifford gates is keyed by names and is subscripted with numbers, so the analytical error per Clifford raises whatever the propagators are.
- `C107_lindbladian_refuted`: `tf_superoper_average_fidelity` hands True to `tf_project_to_comp` as the index, so the open-system average infidelity raises for every gate, register and set.
- `C107_subset_refuted`: the ideal gate is taken on all subsystems whatever `index` says, so with a proper subset of the subsystems the figure never exists (unless there are no gates), where `average_infid_set` gives one.
- `C108_changes_ignored_refuted`: once a run has evaluated the goal, the object keeps the graph. Whatever is changed afterwards - another fidelity function, other values of the parameters that are not optimised, a different opt_map with as many entries - the goal of every vector of that length is still computed with the first setup and the first parameters, and the call changes nothing.
- `C108_second_run_refuted`: the best goal survives into the next run, the directory does not. A second run of the same object that finds nothing strictly better ends with FileNotFoundError.
- `C109_best_file_refuted`: the best goal is remembered across sweeps. A sweep none of whose points beats an earlier sweep leaves no best point in its directory.
- `C109_init_point_refuted`: the option init_point is not optional. Without it no sweep starts: KeyError.
- `C109_leftover_refuted`: a parameter is not put back after its sweep. Every later parameter is swept with the earlier ones at the last point of their sweeps (the upper bound), not at the values they had when the analysis began.
- `C10_set_parameters_atomic_refuted`: A failing call is not atomic: the first parameter keeps its new value.
- `C110_failed_update_refuted`: when the update at the end of a circuit raises, the job fails but the experiment keeps the parameters that were set before the error.
- `C110_first_statevector_refuted`: a new backend refuses every state vector, because it does not know the number of qubits before it has run a circuit; and since the option is kept, no later job succeeds either, with or without a state vector.
- `C110_params_without_map_refuted`: parameters given without their names are kept. The job raises, and so does every later one without names; a later job with names but without values sets the old values.
- `C110_sticky_statevector_refuted`: a state vector given for one job is used for the following jobs too. If it was an array, a job without one is the job with the old vector; if it was a list, it fails.
- `C111_methods_refuted`: `set_prop_method` accepts every registered name, but the call made by compute_propagators passes five positional arguments: of all registered methods only "pwc" can be entered, any other raises TypeError once its folding stack is found.
- `C111_open_refuted`: the open system settings are ignored: whatever the collapse operators, the result is the closed evolution, of the dimension of states.
- `C111_resolution_refuted`: `prop_res` is documented as the resolution the method requires, but neither the number of Hamiltonians nor their values depend on it: the samples stay as they are and the steps become longer. What does change is the attribute `resolution` of the generator, multiplied at every call, also by a failing one.
- `C111_short_refuted`: the gate ends early. On a uniform time grid the method covers N - 1 sample lengths if their number N is odd and N - 2 if it is even, never the N of the signal, which `pwc` covers.
- `C113_callbacks_refuted`: the documentation describes callback_fids as a list of callables to be evaluated and stored, but a callable is refused, and the callbacks have no influence on any goal or on what a run leaves behind: nothing evaluates them.
- `C113_mode_reset_refuted`: `set_goal_function` also resets what it is not told: asking an optimiser that uses the ODE solver for the final state only switches it back to propagators, and giving it another solver resets the step function.
- `C113_oneplusone_refuted`: oneplusone is registered as an algorithm but cannot be called.
- `C113_unusable_refuted`: two thirds of the registered fidelity functions can be selected by name but never evaluated, with any keyword arguments and any goal function; and with an open-system model no named function can be used with the ODE solver.
- `C114_adjust_refuted`: the setting adjust_exp, which run_cfg reads for C1, is also passed to the constructor, which does not know it: no configuration with it works.
- `C114_confirm_refuted`: the types confirm and C3_confirm do exactly what C3 does.
- `C114_initial_refuted`: initial_point works only for C1 and only as one path, although run_cfg has a branch for lists and for the other types; the path is loaded twice.
- `C114_labels_refuted`: state_labels has a default in ModelLearning, but without it the constructor raises.
- `C114_quick_refuted`: with neither instructions nor exp_cfg, run_cfg announces a quick setup, which cannot work: the model it needs has been taken out of the configuration, and KeyError follows.
- `C115_absolute_refuted`: without a directory, as run_cfg calls it, an absolute file name raises TypeError.
- `C115_method_refuted`: the propagation method chosen before is replaced by pwc.
- `C115_shared_line_refuted`: if the two qubits of a gate share a drive line, the second pulse overwrites the first; the first qubit is not driven at its frequency.
- `C116_last_point_refuted`: the result is the last iterate, reported as a success, not the best point evaluated: with goal x^2, a learning rate of two and no momentum it is worse than the start.
- `C116_scan_numbers_refuted`: probe points given as numbers, as for `sweep`, are refused; they must be texts.
- `C116_scan_twice_refuted`: running the same options twice does not scan the same points: the first run removes "init_point", so with no other probes the second raises ValueError.
- `C116_scan_without_probes_refuted`: a scan with nothing but bounds (no probe, initial point not asked for) raises ValueError: the minimum of an empty list is taken.
- `C117_absolute_refuted`: but an absolute name of a run leads out of the data directory.
- `C117_named_recent_refuted`: a run named "recent" makes its directory and then fails: the link cannot replace the directory.
- `C117_race_refuted`: two processes of the same name that start in the same second do not both run: the slower one fails with FileExistsError instead of waiting.
- `C118_array_refuted`: a parameter with several values cannot be logged although there is code for it: the run ends with TypeError (NotImplementedError already at the start).
- `C118_loggers_refuted`: no logger is told the new directory (`set_logdir` is named, not called); a logger without that method makes the call fail with AttributeError after everything was changed.
- `C118_nan_refuted`: one evaluation with goal NaN makes the logger forget the best goal: the next evaluation is written as the new best, however bad.
- `C118_open_loop_refuted`: the status of an open-loop optimisation has no "time", so the first evaluation logged raises KeyError, after parameters, goal and gradient have been written.
- `C118_stale_link_refuted`: the link removed is the one of the current directory: the link "recent" of the data directory stays and points to the directory that is removed.
- `C119_array_refuted`: a point with a parameter of several values cannot be shown.
- `C119_watch_refuted`: watching a log file shows the content from the start for ever - the file is not read again - and from the second refresh on a goal of -1 at time 0 instead of those stored.
- `C11_explicit_map_with_model_parameters_refuted`: When a model parameter is in the stored map, an explicit map passed to the scaled setter is ignored: the named parameter does not change.
- `C120_ignored_refuted`: not all noises given are applied: with amplitude and frequency noise the phase noise is ignored, with phase but no amplitude noise the frequency noise is ignored.
- `C120_slow_refuted`: the rates do not end at the number of samples: the exponent of 10 is the natural logarithm, so the slowest fluctuator has a rate above that number (its 2.3rd power) and is expected to flip less than once in the signal.
- `C121_constant_refuted`: the constant part is not removed: away from the ends a constant comes out divided by the sum of the windowed sinc function, never as 0.
- `C121_rise_time_refuted`: a filter made with the documented parameters (cutoff and keep_mean) raises KeyError: the rise time must be given.
- `C121_short_refuted`: a signal with fewer samples than the filter has taps is returned unfiltered - the limit of a hundred times the length the code seems to intend is not applied.
- `C125_two_qubit_refuted`: the two-qubit gates are handed to Qiskit with the matrices of C3, in which the first qubit is the most significant one. The cross-resonance gates "cr" and "cr90" act on qubits 0 and 1 of a Qiskit circuit with the roles of the qubits exchanged. The tabulated "cx" has the second of its qubits as control, in Qiskit (and in the matrix of "crxp") it is the first.
- `C126_delta_refuted`: the nanosecond is added whatever the sampling, so a signal at time 0 with samples at 0, 1 and 2 ns comes out one sample late.
- `C126_plateau_end_refuted`: at the last moment of the plateau the pulse has the value of the interpolated shape there, not the plateau value.
- `C126_plateau_height_refuted`: the plateau has height 1 whatever the samples: a pulse with samples 0, 0, 0 is 1 on the plateau.
- `C126_plateau_start_refuted`: the middle of the samples is taken to be half their length, whatever the time of the first sample. With samples from 2 to 4 and no plateau (width 2) the pulse is 1 at time 1, before it begins.
- `C126_real_envelopes_refuted`: flattop_risefall and the gaussian of given sigma return real numbers, unlike the other envelopes, and the product with the complex mask of Envelope.get_shape_values fails.
- `C126_slepian_negative_refuted`: coefficients that are all negative turn the pulse upside down and are scaled by the smallest sample instead of the largest: the samples -1 and -2 become 1 and 2, so the pulse exceeds its amplitude.
- `C126_slepian_notch_refuted`: at the two instants where the flat part begins and ends the strict comparisons leave the time as it is, so the series is read at the end of the flat part instead of the middle: with a flat part as long as the ramps the pulse drops to zero there.
- `C127_names_refuted`: the sequences name the identity "Id", which is not a tabulated gate (the table has "id"): the ideal gate of an instruction named "rx90p:Id" acts on one qubit only and that of "Id:Id" on none.
- `C128_phase_refuted`: a unitary basis change with a purely imaginary largest component, such as a phase gate, is accepted, but the model drops that basis vector: its transformation is not unitary and the level vanishes from every operator.
- `C128_relabelling_refuted`: a basis change that only relabels the states, or flips signs, is silently undone: the model works in the bare basis.
- `C128_unchecked_refuted`: the matrix is not checked to be unitary, although it is documented as one and the project's own test gives a random matrix: c times the identity multiplies all energies by c squared.
- `C129_stale_refuted`: the third level is wrong after an update. A search that always finds the minimum, a quarter flux quantum is applied, the model is updated: the energy of the third level is off by the charging energy.
- `C130_best_unitary_refuted`: log_best_unitary replaces the stored best parameters by printed matrices.
- `C130_collision_refuted`: gates whose names differ only in ':' and '.' share their text file.
- `C130_compiled_refuted`: OptimalControl compiles its goal function. While it is traced the experiment is given symbolic tensors, so storing unitaries raises at the first evaluation of every run of a new optimiser: a broken Us.pickle is left, nothing is logged.
- `C130_rerun_refuted`: a second run in the same log directory (setup_log=False, or a directory set by the user) raises FileExistsError before anything is evaluated.
- `C130_slash_name_refuted`: a gate whose name contains a slash makes the run fail, after the pickle of the first evaluation was written.
- `C130_slash_refuted`: a log directory written without a slash at its end stores beside it.
- `C131_equivalents_refuted`: the values of the other members of a group are not shown, so the text does not tell whether they have the value printed.
- `C131_hidden_refuted`: of a parameter with more than four values print_parameters shows none.
- `C131_sign_refuted`: very small and very large negative numbers are printed without their sign.
- `C132_amplitude_refuted`: the figures called fidelity disagree with each other: those of states are amplitudes, `tf_unitary_overlap` is a probability. States that agree with probability 1/2 have the fidelity sqrt (1/2).
- `C133_filters_refuted`: `filters` has no effect.
- `C133_same_name_refuted`: two classes with one name are both created and one of them cannot be reached.
- `C134_batch_noise_refuted`: batch_noise has no effect on the goals: alone it adds zero to all of them, and together with noise it only skips one random number.
- `C134_combined_again_refuted`: the combined search changes the option dictionary it is given, so running it again with the same dictionary can give CMA-ES different settings.
- `C134_foreign_refuted`: options meant for the evolution strategy and given in the common part also reach the gradient search, in the first run and in every later one.
- `C134_second_run_refuted`: the options are taken out of the dictionary the optimiser keeps, so a second run of the same optimiser uses the defaults, whatever was asked for.
- `C135_phase_refuted`: the eigenvectors are transposed, not conjugated, so the drift also depends on the phase in which the eigenvectors are returned: with the phase i it has the wrong sign.
- `C135_wrong_refuted`: so the step does not approximate the evolution, however small the step and whatever the method of diagonalisation
- `C136_empty_refuted`: an empty dictionary of chains changes nothing; chains cannot be removed.
- `C136_refused_used_refuted`: after a refused change the generator goes on with the refused chain, in the old order: here a mixer of two signals gets one of them.
- `C137_limit_taken_back_refuted`: taking the limit back leaves the cutter behind. The Hamiltonian is whole again, but the sparse one is refused as soon as some state is above the old limit.
- `C137_limited_hamiltonians_refuted`: with a limit, drift and controls cannot be read, since the cut is applied to the dictionary of controls; and `get_sparse_Hamiltonians` never returns.
- `C137_sparse_hamiltonians_refuted`: get_sparse_Hamiltonians always raises: it unpacks the method get_Hamiltonians instead of calling it.
- `C137_sparse_without_limit_refuted`: without a limit the sparse Hamiltonian, which would be the Hamiltonian itself, cannot be read: the cutter does not exist.
- `C139_xx_refuted`: the coupling of the library's examples, `h_int_XX`, creates two excitations at once. A limit of one excitation per state cuts a term out of it, even for a system at rest in its ground state.
- `C13_refused_map_disables_refresh_refuted`: If `set_opt_map` is refused because of mismatched limits in the previous map, the refresh flag is nevertheless the one of the refused map: a later optimizer update of a model parameter no longer refreshes the model.
- `C142_transmon_relaxation_refuted`: for a Transmon the same figure falls with half the rate: its simulated lifetime is twice the t1 given.
- `C143_complex_state_refuted`: for complex amplitudes they differ, because tf_state_to_dm does not conjugate: even with no gate at all the state (|0> + i|1>)/sqrt 2 is reported with the population -1/2.
- `C144_log_shapes_refuted`: once any channel has been processed, the waveforms cannot be logged.
- `C146_failed_switch_refuted`: a `set_lindbladian(True)` that raises because a subsystem has neither T1 nor T2* leaves the master equation switched on. Until it is switched off again, every `set_dressed` and `update_model`, so every change of a model parameter through the parameter map, raises as well; the bare Hamiltonians follow the parameters, the dressed ones do not.
- `C146_resonator_refuted`: a resonator has no collapse operator. In the bare frame `set_lindbladian(True)` returns all the same, and `get_Lindbladians` hands None to the propagation.
- `C146_switched_off_refuted`: with the master equation switched off nothing recomputes the collapse operators: `get_Lindbladians` goes on returning those of the parameters at which it was last on.
- `C16_mismatched_limits_accepted_refuted`: The limits check looks at the previous map: grouping parameters with different limits is accepted.
- `C18_double_source_refuted`: Without the closedness hypothesis acyclic chains can be refused: a source listed twice (one device feeding both inputs of a mixer) is reported as a cycle although the device and signal counts are right.
- `C19_fan_out_order_dependent_refuted`: A fan-out chain (one device feeding two others) passes the check although it has two final devices, and the signal returned depends on the dictionary order.
- `C21_stack_mismatch_refuted`: The stack is not self-correcting: if the simulation resolution and the generator disagree about the number of slices, the product silently misses slices. (Words over nat stand for matrices.)
- `C23_lindblad_without_controls_refuted`: The open-system branch without control signals never works: a model with `controllability = False` and `lindbladian = True` cannot be propagated.
- `C25_dynamic_accuracy_refuted`: the accuracy argument of `tf_expm_dynamic` does not bound the error: the result can miss exp(A) by any multiple of it.
- `C25_single_term_refuted`: For one or zero requested terms the function still returns I + A, not the requested truncation.
- `C36_unknown_names_refuted`: a name without any known gate gets the 1x1 matrix `[1`] as its ideal, which NumPy broadcasting turns into the all-ones matrix on the targets: `get_ideal_gate` returns a matrix that is not unitary instead of raising its "No ideal representation" error.
- `C40_column_stacking_refuted`: tf_dm_to_vec and tf_vec_to_dm stack columns, tf_super expects stacked rows: together they do not conjugate by U.
- `C40_state_to_dm_refuted`: tf_state_to_dm does not conjugate the bra: the trace of the result can be 0.
- `C42_rk4_partials_transposed_refuted`: so for a single step the returned dU differs from the returned U, e.g. for H = Y.
- `C42_rk5_order_five_refuted`: Not a fifth-order step: for the scalar equation y' = y the defect against the Taylor polynomial of order five is at least z^5 / 2000 for every step size z in (0, 1].
- `C43_rk4_unitary_last_slice_refuted`: The per-gate rk4 propagator makes one step per pair of samples after the first: with the 2m samples the generator delivers (resolution doubled) it makes m - 1 steps for m time points, so the last slice is never propagated.
- `C45_empty_index_refuted`: the empty list selects all subsystems for the projection but one level for the normalisation, so a perfect qubit gate gets infidelity -3.
- `C49_expect_oper_refuted`: `expect_oper` of a pure state uses the unconjugated outer product: the expectation value of the identity in a normalised state can be 0.
- `C53_suffix_zero_refuted`: a batch size of zero selects everything from the end.
- `C54_random_refuted`: with random sampling learning and validation draw independently, so points used for learning can be used for validation, and others in neither.
- `C55_std_of_diffs_refuted`: The standard deviation of the differences is no distance: a constant offset between experiment and simulation is not seen.
- `C56_unfolded_log_refuted`: without gradients the logged point is not the evaluated one when the algorithm leaves `-1, 1`: the map folds the value back, the log does not, and loading the best point is refused.
- `C57_collision_refuted`: two vectors with the same printed form share one slot; looking up the first returns the gradient of the second.
- `C58_empty_probe_list_refuted`: without initial point an empty probe list makes the sweep fail.
- `C59_sigma_threshold_refuted`: a threshold below one is truncated to zero, so positive widths however small never trigger the sigma criterion.
- `C60_last_thousandth_refuted`: The literal claim "unscaled everywhere inside the window" is false: the last thousandth of the window is cut, whole samples once it has more than 1000.
- `C61_cycle_refuted`: Components that trigger each other recurse without end.
- `C61_double_start_refuted`: The documentation counts the delay from the end of the trigger; the start of the instruction is added on top, so this fails unless t_start = 0.
- `C61_key_collision_refuted`: A dash in a channel name makes two components share one key: the second gets the times of the first.
- `C61_order_dependence_refuted`: The gate length depends on the order of the dictionary when a carrier without a length is a trigger.
- `C61_stale_memo_refuted`: Remembered timings survive a change of the options: get_timings on a memo that was filled before returns the old interval.
- `C62_divergence_refuted`: With such a trigger auto_adjust_t_end never returns: each round makes the gate longer.
- `C63_cosine_flattop_refuted`: On any grid the falling ramp re-uses the times of the first samples, so for a grid that starts at 0 the last sample is not the mirror image of the first.
- `C63_trapezoid_overlap_refuted`: With overlapping ramps the falling ramp overrides the rising one: the pulse starts at full amplitude (and exceeds it), so neither claim survives.
- `C64_gaussian_der_sign_refuted`: gaussian_der and gaussian_der_nonorm are the negatives of the derivatives.
- `C65_step_refuted`: "The step is always 1/resolution" fails: 5/2 slices give 2 points, 3/2 slices apart.
- `C66_last_carrier_refuted`: Of several carriers only the last one counts.
- `C66_stale_lo_refuted`: A channel without a carrier should be refused; once the oscillator has been used, it silently replays its previous signal instead.
- `C67_legacy_late_refuted`: The legacy version delivers the same convolution one sample late: its first output is 0 and the last sample of the convolution is lost.
- `C68_start_time_refuted`: The step response is read at the absolute times of the grid, so the filter depends on when the instruction starts: the same constant pulse, started `T` later, comes out of the exponential highpass damped by exp(-T/tau).
- `C69_coupling_sign_refuted`: Read as a response to the detuning that FluxTuning delivers, the sign is wrong: if the flux raises the frequency of the first element (x > 0) the coupling g0 sqrt(w1' w2 / (w1 w2)) should rise, but it falls.
- `C69_linear_refuted`: FluxTuningLinear asks for a parameter "Phi" but reads "phi".
- `C70_arity_refuted`: The literal claim fails for the way instructions use envelopes: get_awg_signal passes two arguments, get_shape_values of the net-zero class takes one.
- `C71_in_memory_refuted`: Without the detour through JSON, from_dict(asdict()) fails for every instruction with a component: asdict leaves the component objects in place.
- `C71_lost_refuted`: The description, the comment and the choice `use_t_before` are not written.
- `C71_start_refuted`: An instruction that starts later is moved to time zero.
- `C72_attributes_refuted`: attributes that are no parameters take their defaults: the two inputs of a CouplingTuning, and the resolution of the generator.
- `C72_classes_refuted`: these classes do not come back: a Crosstalk loses its channels and its matrix, after which it cannot be written any more; a Pink_Noise gets the default number of fluctuators; an LONoise and a FluxTuningLinear cannot be read.
- `C72_keyword_refuted`: a device given a keyword that is no quantity cannot be written, as for every sampling method of a DigitalToAnalog and every noise level of an LO.
- `C72_model_refuted`: a model always comes back dressed and closed; a model without couplings (the default) cannot be built; one without components cannot be written; a SNAIL cannot be written after it is read.
- `C74_flip_refuted`: flip_labels maps different states to one label, so counts are lost.
- `C74_multilevel_refuted`: With more than two levels the label is not the bit string of the state: one excitation in the first of two three-level subsystems is reported as 0x3.
- `C74_total_refuted`: The total is not the number of shots in general: two equally likely states measured once are both reported zero times.
- `C74_unequal_dims_refuted`: With unequal dimensions states are dropped from the counts.
- `C75_measure_only_refuted`: A circuit without gates cannot be run: reading its last operation fails.
- `C76_high_order_signal_refuted`: Orders above four drop the flux signal.
- `C77_sign_refuted`: Negative values outside the range lose their sign.
- `C78_fallback_refuted`: Without dominant components the fallback may pick one position twice: the order is no permutation and the transformation is not unitary.
- `C78_imaginary_refuted`: A purely imaginary dominant component has sign 0: its column of the transformation vanishes, for any drift and any basis.
- `C79_marker_refuted`: The markers are not escaped: a dict of the user's that happens to have the single key "__array__" is read back as an array.
- `C80_earlier_gates_refuted`: With the default setting, gates computed earlier are lost.
- `C82_cut_controlled_refuted`: Such a cut-off works with a model without separate controls only.
- `C82_cut_unitary_refuted`: With an excitation cut-off the gate of the whole space is not unitary as soon as some state is cut.
- `C82_dephasing_refuted`: A dephasing strength other than zero makes the computation of every driven gate fail.
- `C83_failure_not_restored_refuted`: when an instance raises (here a noise value outside the limits, the second of the list), nothing restores the parameter: it keeps the previous noise value.
- `C83_group_overwritten_refuted`: only the value of the first member of a noise group is saved, and it is written back to every member.
- `C83_optimised_noise_refuted`: a noise parameter that is also optimised is overwritten by the optimiser vector before each evaluation, so every instance sees the store without noise.
- `C85_odd_echo_refuted`: An odd echo length loses one wait.
- `C85_wait_name_refuted`: The wait of the T1 sequence is not the name of a tabulated gate; that of the Ramsey sequences is.
- `C86_positive_refuted`: A symmetric transmon at half a flux quantum gets the anharmonicity, a negative number, as frequency.
- `C88_undriven_channel_refuted`: An instruction that does not drive all crossed channels cannot be generated, although a missing drive could count as zero.
- `C89_grid_mismatch_refuted`: Response takes its time points from its own resolution, not from the signal: if the signal was sampled at another resolution, values and times do not match.
- `C90_offset_times_refuted`: DC_Offset shifts every sample by the offset -- and, unintendedly, every time point as well.
- `C91_vz_local_refuted`: It is not a rotation of the target alone when another subsystem leaves its qubit levels: the phase of the target's excited state then disappears.
- `C91_vz_open_refuted`: It cannot be applied to the density vector of an open system.
- `C92_bracket_names_refuted`: Without the restriction keys collide.
- `C93_cos_qubit_hermitian_refuted`: The cosine model of the flux qubit is not Hermitian: its charge term is the real, antisymmetric matrix a - a+, entering linearly.
- `C94_independent_processes_refuted`: The operators of one component are added before use, so relaxation and dephasing together are not the sum of the two processes: an excited qubit acquires coherence.
- `C94_thermal_equilibrium_refuted`: So the Boltzmann distribution, with p1/p0 = exp(-x), is not stationary.
- `C94_transmon_relaxation_refuted`: For a Transmon the rate is half of that: its lifetime is twice the t1 given.
- `C97_method_refuted`: the method of propagation is not part of the configuration.
- `C98_complex_ket_refuted`: set_init_state does not conjugate the amplitudes: (|0> + i|1>)/sqrt 2 becomes a matrix of trace zero.
- `C98_default_shape_refuted`: for an open system the default initial state is a density matrix without the task "init_ground" and a density vector with it: the superoperators of the propagators apply to the second only, the solvers for trajectories to the first only.
- `C98_switch_back_refuted`: switching open system dynamics off again leaves the density matrix in place of the state vector.
- `C98_wrong_size_refuted`: a state of a wrong size is dropped without an error; the model keeps starting from the ground state.
- `C99_complex_ket_refuted`: with complex amplitudes the von Neumann trajectory starts from a matrix that is not a density matrix: its trace can be zero.
- `C99_final_time_refuted`: the time compute_final_state returns is that of the last gate alone.
- `C99_no_sequence_refuted`: without a sequence both methods fail, and an empty one fails for the final state only.
- `C99_times_three_gates_refuted`: from the third gate on the times are wrong: the offset is the end of the previous gate counted from that gate's own start. A gate repeated three times gets the same times in its second and its third run.

## Axioms per theorem

What `Print Assumptions` lists, grouped. F = FunctionalExtensionality.functional_extensionality_dep, D = ClassicalDedekindReals.sig_forall_dec, N = ClassicalDedekindReals.sig_not_dec, C = Classical_Prop.classic. All are axioms of the standard library; D and N come with the real numbers, F with the real numbers and Coquelicot, C with Coquelicot and classical case splits.

- **D**: `C102_dash_refuted`, `C102_same_name_refuted`, `C119_array_refuted`, `C119_incomplete`, `C119_names`, `C119_table`, `C119_watch_refuted`, `C120_white_and_constant`, `C126_simple`, `C128_unordered`, `C137_hamiltonians`, `C137_last_limit_counts`, `C137_limit_taken_back_refuted`, `C137_limited_hamiltonians_refuted`, `C137_sparse_without_limit_refuted`, `C139_conserving_respects`, `C28_bad_index_refused`, `C49_expect_oper`, `C52_unknown_label`, `C61_channel`, `C61_cycle_refuted`, `C61_key_collision_refuted`, `C61_stale_memo_refuted`, `C61_timings`, `C88_undriven_channel_refuted`, `C90_offset_times_refuted`, `C95_hamiltonian`, `C95_refused`, `C98_wrong_size_refuted`
- **D, F**: `C03_fold_unique`, `C06_arithmetic`, `C08_set_then_get`, `C09_touches_nothing_else`, `C100_default_method`, `C100_named_method_refuted`, `C100_other_lengths`, `C100_selected_method`, `C100_unknown_method`, `C101_rk4_refuted`, `C102_config_keeps_others`, `C102_mapped_gate`, `C102_mapto_ideal_refuted`, `C102_mapto_key_refuted`, `C102_set_by_contents`, `C102_writes_reach_owners`, `C103_median`, `C103_median_ignores_outliers_refuted`, `C111_default_enters`, `C111_hamiltonians`, `C111_methods_refuted`, `C111_open_refuted`, `C111_resolution_refuted`, `C111_rk4_unitary`, `C111_uncontrolled`, `C116_gcmaes`, `C116_gcmaes_is_cmaes`, `C116_gcmaes_options`, `C116_last_point_refuted`, `C116_scan`, `C116_scan_bounds`, `C116_scan_inside`, `C116_scan_numbers_refuted`, `C116_scan_twice_refuted`, `C116_scan_without_probes_refuted`, `C116_sgd`, `C116_sgd_converges`, `C116_sgd_options`, `C116_sgd_quadratic`, `C118_array_refuted`, `C118_errors`, `C118_nan_refuted`, `C118_open_loop_refuted`, `C118_running_minimum`, `C118_written`, `C120_fresh_numbers`, `C120_process`, `C120_process_total`, `C121_taps`, `C126_delta`, `C126_delta_refuted`, `C126_plateau`, `C126_plateau_end`, `C126_plateau_end_refuted`, `C126_plateau_height_refuted`, `C126_plateau_start_refuted`, `C128_phase_refuted`, `C12_index_beyond_the_end`, `C12_index_to_name`, `C132_complete`, `C132_expectation`, `C132_mixture`, `C132_picture`, `C132_probability`, `C132_real`, `C134_batch_noise_refuted`, `C134_combined`, `C134_combined_again`, `C134_combined_again_refuted`, `C134_foreign_refuted`, `C134_noise`, `C134_noiseless`, `C134_second_run_refuted`, `C134_settings`, `C136_refused`, `C136_refused_used_refuted`, `C136_repair`, `C137_limited_hamiltonian`, `C137_sparse_hamiltonian`, `C13_set_parameters_refreshes`, `C146_before_update`, `C146_closed`, `C146_constructed`, `C146_failed_switch_refuted`, `C146_follows`, `C146_history`, `C146_open`, `C146_resonator_refuted`, `C146_switched_off_refuted`, `C15_store_succeeds`, `C16_accepted_map_is_stored`, `C16_mismatched_limits_accepted_refuted`, `C16_unknown_identifier_refused`, `C17_order_is_topological`, `C18_cyclic_chains_rejected`, `C18_double_source_refuted`, `C19_each_device_once`, `C19_fan_out_order_dependent_refuted`, `C19_generate_signals_is_dataflow`, `C20_accepted_chains_balance`, `C20_balanced_acyclic_chains_accepted`, `C25_single_term_refuted`, `C25_tf_expm_is_taylor`, `C28_different_subsystems_commute`, `C28_embedded_operator`, `C28_embedding_algebra`, `C31_blowup_places_elements`, `C31_cut_after_blowup`, `C31_cut_keeps_low_excitations`, `C32_projection_keeps_computational_elements`, `C32_superoperator_projection`, `C37_lindblad_hermitian`, `C37_lindblad_traceless`, `C37_von_neumann`, `C38_final_state_agrees`, `C38_hermitian_preserved`, `C38_trace_preserved`, `C39_generator_is_lindblad`, `C40_column_stacking_conjugates`, `C40_column_stacking_refuted`, `C40_left_right`, `C40_state_to_dm_real`, `C40_super_conjugates`, `C40_super_homomorphism`, `C42_rk38_is_taylor_4`, `C42_rk4_is_taylor_4`, `C42_rk4_partials_transposed_refuted`, `C42_rk4_propagator`, `C42_rk5_order_five_refuted`, `C42_rk5_step`, `C42_steps_are_linear`, `C42_tsit5_step`, `C43_rk4_unitary_last_slice_refuted`, `C43_sampling_aligned`, `C44_control_sum_entries`, `C44_control_sum_hermitian`, `C44_single_mode_hermitian`, `C49_expect_oper_real_state`, `C50_conserves_total`, `C50_nonnegative`, `C50_perfect_qubits_identity`, `C50_perfect_readout`, `C50_shape_mismatch`, `C50_value`, `C52_all_labels_give_total`, `C52_labels`, `C52_no_labels`, `C53_even_fid`, `C55_combined_between`, `C58_empty_probe_list_refuted`, `C58_grid`, `C58_linspace`, `C58_sweep`, `C59_sigma_threshold_refuted`, `C59_stops_exactly`, `C61_double_start_refuted`, `C61_full_length`, `C61_order`, `C61_order_dependence_refuted`, `C62_auto_adjust`, `C62_divergence_refuted`, `C63_pwc`, `C63_trapezoid`, `C63_trapezoid_overlap_refuted`, `C65_centres`, `C65_edges`, `C65_general`, `C65_step_refuted`, `C65_too_short`, `C70_net_zero`, `C74_shot_total`, `C74_total_refuted`, `C74_unequal_dims_refuted`, `C78_unordered`, `C81_operators`, `C87_hold`, `C87_order`, `C88_identity`, `C88_mixing`, `C90_additive`, `C93_requirements`, `C95_drives`, `C99_density`, `C99_final_state`, `C99_final_time_refuted`, `C99_no_sequence_refuted`, `C99_split`, `C99_times_three_gates_refuted`, `C99_times_two_gates`, `C99_trajectory`, `C99_unknown_gate`, `C99_von_neumann_start`
- **D, F, N**: `C04_dict_roundtrip`, `C07_default_limits_admit_value`, `C07_explicit_limits_kept`, `C07_swapped_limits_accepted_refuted`, `C101_initial_state`, `C101_population_functions`, `C101_populations`, `C105_orbit`, `C105_perfect`, `C105_populations`, `C107_density_refuted`, `C107_density_value`, `C107_epc_evaluates`, `C107_epc_refuted`, `C107_final_columns`, `C107_final_diagonal`, `C107_final_errors`, `C107_final_ket`, `C107_lindbladian_refuted`, `C107_population`, `C107_population_errors`, `C107_sequence_bounds`, `C107_sequence_order`, `C107_sequence_value`, `C107_subset_refuted`, `C110_failed_update_refuted`, `C110_first_statevector_refuted`, `C110_history`, `C110_job`, `C110_params_without_map_refuted`, `C110_separate`, `C110_statevector`, `C110_sticky_statevector_refuted`, `C111_short_refuted`, `C111_tf_propagation`, `C115_absolute_refuted`, `C115_accepted`, `C115_experiment`, `C115_method_refuted`, `C115_pulse`, `C115_shared_line_refuted`, `C120_carriers`, `C120_ignored_refuted`, `C120_negative`, `C120_oscillator`, `C120_quiet`, `C120_unit_circle`, `C121_constant_refuted`, `C121_degenerate`, `C121_filter`, `C121_rise_time_refuted`, `C121_short_refuted`, `C124_average_infid_lipschitz`, `C124_state_transfer_lipschitz`, `C124_unitary_infid_lipschitz`, `C125_circuits_with_reversed_targets`, `C125_crxp_class`, `C125_perfect_gates`, `C125_reversed_targets`, `C125_rotation_circuits`, `C125_rotations`, `C125_symmetric_gates`, `C125_symmetric_table`, `C125_two_qubit_refuted`, `C126_flattop_1ns`, `C126_real_envelopes_refuted`, `C126_slepian_fails`, `C126_slepian_flat`, `C126_slepian_negative_refuted`, `C126_slepian_notch_refuted`, `C126_slepian_outside`, `C126_slepian_peak`, `C126_slepian_range`, `C126_slepian_relative`, `C126_slepian_symmetric`, `C127_names_refuted`, `C127_tomography_complete`, `C127_tomography_unitary`, `C128_default`, `C128_default_operators`, `C128_propagation`, `C128_relabelled`, `C128_relabelling_refuted`, `C128_stable`, `C128_unchecked_refuted`, `C129_transmon`, `C132_amplitude_refuted`, `C132_bounded`, `C132_invariant`, `C132_ket`, `C132_mixed_pure`, `C132_pure`, `C132_root`, `C132_self`, `C132_two_pure`, `C132_unique_root`, `C135_drift`, `C135_phase_refuted`, `C135_step`, `C135_twice`, `C135_unusable`, `C138_idle`, `C138_independent`, `C138_no_crosstalk`, `C139_conserving_hamiltonians`, `C139_exact_limit`, `C139_xx_refuted`, `C140_class_populations`, `C140_diagonal`, `C140_excitations`, `C140_selection_rule`, `C141_backwards`, `C141_offset`, `C141_one_after_the_other`, `C142_dephasing`, `C142_relaxation`, `C142_transmon_relaxation_refuted`, `C143_complex_state_refuted`, `C143_gate`, `C143_populations`, `C144_bounds`, `C144_estimate`, `C144_log_shapes_refuted`, `C144_phase_and_amplitude`, `C144_unknown`, `C145_independent`, `C145_no_crosstalk`, `C146_frame`, `C147_gate`, `C147_goals`, `C147_open`, `C147_populations`, `C148_eigenstates`, `C148_energy`, `C148_exact`, `C148_idle`, `C148_resolution`, `C25_dynamic_accuracy_refuted`, `C25_tf_expm_converges`, `C25_tf_expm_dynamic_error`, `C25_tf_expm_dynamic_is_taylor`, `C25_tf_expm_dynamic_terminates`, `C25_tf_expm_error`, `C26_populations_of_sequences`, `C29_annihilator_lowers`, `C29_commutator`, `C29_different_subsystems_commute`, `C29_number_operator`, `C30_embedded_gate`, `C30_embedded_unitary`, `C30_embedding_algebra`, `C33_composition`, `C33_defined_for_known_lines`, `C33_frame_rotation_phases`, `C33_frame_rotation_unitary`, `C34_sequences_invert`, `C34_sequences_invert_on_register`, `C35_closed_under_products`, `C35_decompositions`, `C35_inverses`, `C35_pairwise_different`, `C36_ideal_gate_on_register`, `C36_joined_names_unitary`, `C36_tabulated_gates_unitary`, `C36_unknown_names_refuted`, `C39_closed_system`, `C39_code_paths_agree`, `C39_evolution_keeps_hermiticity`, `C39_evolution_keeps_trace`, `C40_state_to_dm_refuted`, `C41_channel_is_parity_mixture`, `C41_coherences`, `C41_populations_and_trace`, `C41_raises_outside_range`, `C41_zero_strength_is_identity`, `C44_couplings_hermitian`, `C44_duffing_energies`, `C45_empty_index_refuted`, `C45_range_and_zero`, `C45_symmetric_and_phase_invariant`, `C45_zero_iff_equal_up_to_phase`, `C46_range_and_zero`, `C46_relation_to_unitary_infid`, `C46_shapes`, `C46_value`, `C47_range_and_zero`, `C48_mean_between_extremes`, `C48_order_irrelevant`, `C48_set_in_range`, `C48_sets_are_means`, `C49_density_total`, `C49_density_vector`, `C49_expect_oper_refuted`, `C49_pure_states`, `C49_superoperator_populations`, `C51_thermal_state`, `C51_zero_temperature`, `C53_high_std`, `C55_distances`, `C55_gradient`, `C55_mean_at_most_rms`, `C55_std_of_diffs_refuted`, `C63_cosine`, `C63_cosine_flattop`, `C63_cosine_flattop_refuted`, `C63_flattop_cut`, `C63_fourier`, `C63_fourier_harmonics`, `C66_bounded`, `C66_cosine_form`, `C66_last_carrier_refuted`, `C66_linear`, `C66_mixed`, `C66_stale_lo_refuted`, `C67_bilinear`, `C67_causal`, `C67_convolution`, `C67_delay`, `C67_impulse`, `C67_legacy_late_refuted`, `C68_filters`, `C68_linear_causal`, `C68_start_time_refuted`, `C68_step`, `C69_coupling`, `C69_coupling_sign_refuted`, `C69_factor`, `C69_flux`, `C69_linear`, `C70_base_length`, `C71_add_component`, `C71_defaults`, `C71_exact`, `C71_in_memory_refuted`, `C71_init`, `C71_lost_refuted`, `C71_parameter_map`, `C71_plain`, `C71_roundtrip`, `C71_stable`, `C71_start_refuted`, `C71_valid`, `C72_attributes_refuted`, `C72_classes_refuted`, `C72_device`, `C72_device_new`, `C72_generator`, `C72_keyword_refuted`, `C72_model`, `C72_model_refuted`, `C74_counts`, `C75_barriers_neutral`, `C75_measure_only_refuted`, `C75_param_update`, `C75_statevector`, `C75_statevector_complete`, `C75_unknown_gate`, `C78_fallback_refuted`, `C78_imaginary_refuted`, `C78_overly_dressed`, `C78_permutation`, `C78_transform`, `C79_exact`, `C79_marker_refuted`, `C79_roundtrip`, `C80_earlier_gates_refuted`, `C80_failure_keeps_propagators`, `C80_first_error`, `C80_frame_rotation`, `C80_order_irrelevant`, `C80_selected_gates`, `C80_sequences`, `C80_unknown_gate_error`, `C80_unknown_gate_fails`, `C81_dressed_drift`, `C81_propagation`, `C81_qubit_frequencies`, `C82_closed_unitary`, `C82_cut_block_unitary`, `C82_cut_controlled_refuted`, `C82_cut_unitary_refuted`, `C82_dephasing_refuted`, `C82_different_lengths`, `C82_different_lengths_controlled`, `C82_experiment_density`, `C82_experiment_unitary`, `C82_open_density`, `C82_time_slices`, `C82_uncontrolled_slices`, `C84_additive`, `C84_exponential`, `C84_gates`, `C84_unitary`, `C85_flip`, `C85_wait_name_refuted`, `C86_curve`, `C86_device_agrees`, `C86_frequency`, `C86_junction_ratio`, `C86_monotone`, `C86_positive_refuted`, `C91_sequences`, `C91_virtual_z`, `C91_vz_additive`, `C91_vz_local_refuted`, `C91_vz_open_refuted`, `C91_vz_populations`, `C93_qubit_levels`, `C93_snail_levels`, `C93_transmon_levels`, `C94_dephasing`, `C94_independent_processes_refuted`, `C94_needs_times`, `C94_relaxation`, `C94_thermal_rates`, `C94_transmon_relaxation_refuted`, `C95_branches_agree`, `C96_chi_diagonal`, `C96_chi_of_unitary_process`, `C96_pauli_basis_columns`, `C96_pauli_basis_orthogonal`, `C97_experiment`, `C97_method_refuted`, `C98_closed_kept`, `C98_complex_ket_refuted`, `C98_default_ground`, `C98_default_shape_refuted`, `C98_open_mixed`, `C98_open_pure`, `C98_read_twice`, `C98_switch_back_refuted`, `C99_complex_ket_refuted`
- **C, D, F, N**: `C01_set_value_roundtrip`, `C02_history_keeps_limits`, `C02_raise_leaves_unchanged`, `C02_raises_exactly_out_of_limits`, `C03_identity_inside`, `C03_set_opt_value_in_limits`, `C05_extend_never_fails`, `C06_arithmetic_pi_units_refuted`, `C06_inplace_add`, `C08_accepts_exactly_fitting_vectors`, `C09_scaled_touches_nothing_else`, `C101_dU_of_t_lind`, `C101_experiment`, `C101_gate`, `C101_slice`, `C103_binom_likelihood`, `C103_binom_norm`, `C103_binom_normalised`, `C103_multinom_likelihood`, `C103_multinom_norm`, `C103_multinom_norm_offset_refuted`, `C104_different_maps_refuted`, `C104_goal`, `C104_history_free`, `C104_perfect`, `C104_repeatable`, `C104_simulated_at`, `C104_validates_best_refuted`, `C104_validation`, `C104_validation_without_data_refuted`, `C105_error_of_rate`, `C105_estimate`, `C105_gate_names_refuted`, `C105_leakage`, `C105_lengths`, `C105_log_lengths`, `C105_one_sequence_refuted`, `C105_retry_refuted`, `C106_calibration`, `C106_interrupted`, `C106_second_run_refuted`, `C106_succeeds`, `C108_changes_ignored_refuted`, `C108_compiled_run`, `C108_failed_first_call`, `C108_second_run_refuted`, `C109_best_file_refuted`, `C109_init_point_refuted`, `C109_leftover_refuted`, `C109_sweeps`, `C10_failing_update_is_prefix`, `C10_set_parameters_atomic_refuted`, `C112_gradient`, `C112_same_run`, `C11_explicit_map_with_model_parameters_refuted`, `C11_scaled_get_then_set`, `C11_scaled_set_then_get`, `C120_pink`, `C120_pink_levels`, `C120_slow_refuted`, `C122_constant`, `C122_convergence`, `C122_error_bound`, `C122_population_error`, `C123_convergence`, `C123_error_bound`, `C123_limit`, `C124_goals_are_physical`, `C124_propagators_are_physical`, `C129_hamiltonian`, `C129_methods`, `C129_minimum`, `C129_renewed`, `C129_signal_anharmonicity`, `C129_stale`, `C129_stale_refuted`, `C129_unnoticed`, `C131_equivalents_refuted`, `C131_hidden_refuted`, `C131_list`, `C131_number`, `C131_print`, `C131_quantity`, `C131_readable`, `C131_sign_refuted`, `C135_wrong_refuted`, `C13_refused_map_disables_refresh_refuted`, `C13_scaled_setter_refreshes`, `C15_stored_point_reloads`, `C51_populations_ordered`, `C55_defined`, `C55_gaussian`, `C55_likelihood`, `C56_after_the_run`, `C56_best_point`, `C56_nothing_below_sentinel`, `C56_unfolded_log_refuted`, `C57_collision_refuted`, `C57_lookup`, `C60_last_thousandth_refuted`, `C60_outside_slot`, `C60_underflow`, `C60_window`, `C63_drag_sigma`, `C63_flattop`, `C63_flattop_cut_center`, `C63_flattop_risefall`, `C63_flattop_variant`, `C63_gaussian`, `C63_gaussian_nonorm`, `C63_gaussian_sigma`, `C64_drag_der`, `C64_drag_envelope`, `C64_gaussian_der_sign_refuted`, `C76_cshunt`, `C76_cshunt_all_orders`, `C76_fluxonium`, `C76_high_order_signal_refuted`, `C77_exact`, `C77_outside`, `C77_sign_refuted`, `C83_averages_and_restores`, `C83_failure_not_restored_refuted`, `C83_group_overwritten_refuted`, `C83_optimised_noise_refuted`, `C83_succeeds`, `C86_expanded_is_cosine_series`, `C86_expanded_leading_term`, `C89_grid_mismatch_refuted`, `C89_response`, `C89_response_fft`, `C93_cos_qubit_hermitian_refuted`, `C93_hermitian`, `C93_transform_is_similarity`, `C94_thermal_equilibrium_refuted`
- **none (closed under the global context)**: `C102_built_gates_register`, `C102_get_parameter`, `C102_registered`, `C102_update_parameters`, `C113_algorithm`, `C113_callbacks`, `C113_callbacks_refuted`, `C113_fidelity`, `C113_goal`, `C113_keywords`, `C113_mode`, `C113_mode_reset_refuted`, `C113_oneplusone_refuted`, `C113_subspace`, `C113_unusable_refuted`, `C113_usable`, `C113_usable_ode`, `C114_adjust_refuted`, `C114_arguments`, `C114_confirm_refuted`, `C114_initial_refuted`, `C114_labels_refuted`, `C114_needed`, `C114_quick_refuted`, `C114_run_last`, `C114_success`, `C114_type`, `C115_paths`, `C117_absolute_refuted`, `C117_alone`, `C117_default`, `C117_inside`, `C117_link_denied`, `C117_named_recent_refuted`, `C117_nothing_lost`, `C117_own_directory`, `C117_race_refuted`, `C117_recent`, `C118_loggers_refuted`, `C118_replace_logdir`, `C118_stale_link_refuted`, `C118_start`, `C127_sequences`, `C129_signal`, `C12_name_owns_the_slot`, `C130_best_unitary_refuted`, `C130_collision_refuted`, `C130_compiled_refuted`, `C130_default`, `C130_disabled`, `C130_file_names`, `C130_kept`, `C130_not_enabled`, `C130_one`, `C130_own_folder`, `C130_rerun_refuted`, `C130_slash_name_refuted`, `C130_slash_refuted`, `C130_stored`, `C133_all`, `C133_filters_refuted`, `C133_named`, `C133_only`, `C133_options`, `C133_options_missing`, `C133_refused`, `C133_same_name_refuted`, `C133_separate`, `C133_several`, `C133_shared`, `C136_empty_refuted`, `C137_no_limit`, `C137_sparse_hamiltonians_refuted`, `C14_partition`, `C14_rejects_bad_maps`, `C18_ordering_succeeds_iff_acyclic`, `C21_folded_product`, `C21_stack_mismatch_refuted`, `C22_concatenation`, `C22_empty_product_refused`, `C22_left_right_products`, `C23_batch_size_irrelevant`, `C23_batching`, `C23_batching_hamiltonian`, `C23_lindblad_without_controls_refuted`, `C24_composition`, `C24_empty_table_refused`, `C24_sequence_is_time_ordered_product`, `C24_unknown_gate_raises`, `C26_sequences_independent`, `C26_split_sequence`, `C26_state_evolution`, `C27_indeces_pointwise`, `C27_index_is_kronecker_position`, `C27_labels_enumerate_every_state_once`, `C27_unknown_state_refused`, `C34_zero_length_refused`, `C40_dm_vec_round_trip`, `C53_all_and_prefix`, `C53_even`, `C53_even_errors`, `C53_random`, `C53_random_reaches_every_point`, `C53_suffix`, `C53_suffix_zero_refuted`, `C54_partition`, `C54_random_refuted`, `C59_combined_options`, `C61_keys_distinct`, `C69_linear_refuted`, `C70_arity_refuted`, `C73_flatten`, `C73_idempotent`, `C74_bitstring`, `C74_flip_refuted`, `C74_labels`, `C74_multilevel_refuted`, `C75_measurements`, `C75_sanitize`, `C85_odd_echo_refuted`, `C85_structure`, `C92_bracket_names_refuted`, `C92_keys_injective`
