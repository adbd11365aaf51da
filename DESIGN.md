# Formal model of TEflow in Coq — design

TEflow is a numerical Python package (numpy/scipy).  Its source (`/repo/src/teflow`) is modelled function by
function in `rocq/theories`.  The properties are in `properties.jsonl`, the theorems belonging to each in
`MANIFEST.json`, the axioms of each theorem in `ASSUMPTIONS.md`, the wrong programs tried in `seeded/LOG.jsonl`.

| file | content |
|---|---|
| `Py.v`, `PyStr.v`, `PyDict.v`, `RUtil.v`, `Regex.v` | Python values shared by all models: results with exceptions, strings, insertion-ordered dictionaries, finite sums over `R`, backtracking matcher for the regular expressions used |
| `<Topic>Model.v` | model of the code; every definition cites `/repo` file and lines and says where it simplifies |
| `<Topic>Spec.v` | the small independent vocabulary the theorems are stated with (no reference to the model) |
| `<Topic>Proofs.v` | lemmas |
| `<Topic>Props.v` | the property theorems `Cnn_...`, `Print Assumptions`, and non-vacuity examples `Cnn_case...` |

`tools/props.py` regenerates `properties.jsonl`, `tools/project.py` regenerates `rocq/_CoqProject` and `MANIFEST.json`
(every `Theorem Cnn_...` of a `*Props.v` file is listed), `tools/assumptions.py` regenerates `ASSUMPTIONS.md`,
`tools/mutate.py` rebuilds the theories against one edited definition at a time (lists in `seeded/mutants_*.py`).

## Modelling decisions

* **Numbers.** Formula code (ztdev, engout, anisotro, bandlib, kappa, most of mathext, the numeric commands) is
  modelled over the classical reals `R` of the standard library: rounding is *not* modelled.
  numpy's silent `inf`/`nan` on division by zero or `sqrt` of a negative is excluded by an explicit
  guard in each theorem (non-zero denominators etc.), or represented by an `option` result where the property is about it.
  Discrete control flow on numbers (split_monotonic, parse_seq) is modelled over `Q` or over any ordered type;
  the one finding that depends on IEEE rounding (C09) uses Flocq's `binary_float 53 1024`.
* **Arrays** are lists; broadcasting is modelled elementwise (a scalar function lifted by `map`) unless stated otherwise.
* **Dictionaries** are association lists in insertion order with distinct keys (`PyDict.v`).
* **Text** is ASCII; files are functions from names to texts with newlines translated; writing a file does not fail.
* **Regular expressions** of the code are either scanners proved equivalent to a declarative description
  (tokens, identifiers, formulas) or terms of `Regex.v`, a backtracking matcher with Python's greedy/lazy order.
* **Exceptions** are values: `Ok x | Err e`, and for methods that mutate before raising the model
  returns the mutated state together with the error.  Messages are not modelled.
* **External code** is an argument of the model (section variable or function argument); a theorem states the contract it
  needs as a hypothesis.  Such arguments are: `scipy.optimize.minimize_scalar`, `root_scalar`, `curve_fit`; `numpy.linalg.solve`
  (exact solution); the interpolators of scipy/numpy (any function of nodes, values and points); `float`, `int`, `eval` on text and number
  formatting; `np.loadtxt`/`np.savetxt` on numbers (their line structure *is* modelled); logging; the iteration order of Python sets.
  `scipy.integrate.romb` is transcribed (RombModel) and proved exact where claimed; `quad`/`vquad` inside the Debye model is the Riemann
  integral (Coquelicot `RInt`), `np.trapz`/`cumulative_trapezoid`/`np.interp` are transcribed.
* **Documented behaviour that the code violates** is recorded as a finding: the property states exactly what the code does, and
  a theorem shows the documented claim false of the model.

## Trusted base

* Coq 8.16.1 kernel (re-checked with `coqchk` by vcheck), and the reading of `/repo` documented in comments: nothing in this sandbox
  could run the Python code, so the correspondence of model and code is by reading.
* Axioms: only the standard library's, as printed under each theorem and collected in `ASSUMPTIONS.md`:
  `ClassicalDedekindReals.sig_forall_dec`, `ClassicalDedekindReals.sig_not_dec`,
  `FunctionalExtensionality.functional_extensionality_dep` (all three from `Reals`) and `Classical_Prop.classic` (through Coquelicot, Flocq and
  the trigonometry of the standard library).  No axiom, admitted proof, functor or module type of our own.
* Libraries beyond the standard one: Flocq (C09), Coquelicot (C77–C97 where integrals or derivatives occur).

## Per-property plan

| id | what is modelled | how it is proved |
|---|---|---|
| C01–C03 | `AttrDict.retain` on ordered dictionaries, `keys` = list with an iterable/sequence tag | induction on the entries; the greedy loop keeps a sorted sublist bounded by the moved ones |
| C04 | `ListDict` classmethods on association lists | induction |
| C05 | `ExecWrapper` as a state machine; spec = "latest value" over the history | induction on the history |
| C06 | `pmatch` over section names | induction, string lemmas |
| C07, C11 | regex splits as scanners over characters with the look-arounds written out | equivalence with a token grammar, induction on the text |
| C08 | range expansion over `Q` | termination measure, induction on the count |
| C09 | the same loop on binary64 (Flocq) | invariant: adding 1 leaves a large float unchanged; below 2^53 every step advances by at least 1/2; parity of the mantissa between 2^53 and 2^54 |
| C10 | logger handler table as a state machine | invariant over the history |
| C12 | sign string and greedy matcher | characterisation of the leftmost-greedy match, induction |
| C13–C17, C19 | mixing, Fermi–Dirac, smoothstep, kernels, interpx, Metric over `R` | `nra`/`field`, induction on lists, derivative lemmas |
| C18 | `vinterp`: argsort as a stable sort, any interpolation back-end | uniqueness of the sorted permutation of distinct keys |
| C20 | GPR: matrices as functions, exact solve as hypothesis | linear algebra with finite sums |
| C21–C24, C40 | ztdev: `cal_Yita` recursion, device ZT, optimisation with any minimiser | induction with the invariant Phi_0*T_i <= Phi_i*T_0 |
| C25–C33, C41, C43, C44 | engout: device formulas, polynomials as coefficient lists, trapezoids + interpolation, build/simulate states | algebra over `R`, induction on grids |
| C34–C39, C42 | anisotro: 3x3 matrices, rotations, layer mixing, Bergman–Levy | `ring`, Pythagoras, Cauchy–Schwarz |
| C45–C49 | loader data sets: identifiers, temperature association, alignment | scanners vs. grammar, induction on columns |
| C50–C57 | Compound and Alloy: formulas, normalisation, blends, texts | parser/printer round trips, sums over dictionaries |
| C58–C59 | Romberg quadrature with the Fermi window | the weights as rows of the tableau (computed in Q at order 6; at every order by induction on the columns with two-sided bounds, RposProofs), change of variables by Coquelicot |
| C60–C68 | BaseBand/MultiBands: compile, transport identities, additivity, constructor and extend | sums over bands, state machine for compilation |
| C69–C72 | APSSPB/APSSKB/LinearBand: DOS, Hall functions, scaling, valuate | algebra of powers, monotonicity |
| C73–C76 | RSPB and its inverse formulas, bandline/dosline, spectral sums | algebra, `Rpower` |
| C77–C80 | Variable/Parameters/constraints/fit as a heap of objects | invariants over histories |
| C81–C84 | scattering mechanisms | formulas and positivity |
| C85–C89 | Debye model: construction, spectral, integral, cumulative, sound velocities | Coquelicot integrals, Chasles, monotonicity |
| C90–C93 | Klemens, disorder parameters, entropy, Slack, bipolar, power law | algebra, continuity of atan x / x, concavity |
| C94–C97 | parse_KappaFit: variables, sections, substituted file, outputs | regex terms, induction on sections/lines |
| C98–C100 | instrument files, parse_TEfile | line grammars, induction on rows |
| C101–C103 | parse_Bands | induction on sections, broadcasting of lists |
| C104–C107 | output names, refine, mixing commands | path and token lemmas |
| C108–C109 | interp and cutoff commands | column-wise statements over any interpolator |
| C110–C112 | format command | nearest-integer lemmas, trapezoids, option algebra |
| C113–C115 | number files, ztdev and engout commands | text round trip (written rows are read back), reuse of C21–C44 |
| C116–C119 | band and kappa commands, dispatch | reuse of C02, C05, C104, C113; invariant over histories of commands |
| C120–C123 | arrays: vquad, interpolation methods, vinterp and interpx on shapes, array entries | induction on shapes and positions (C order), reuse of C17, C18, C113 |
| C124 | generator formulas over any operand kind, on arrays with broadcasting and on single numbers | a relation between array and the value shown at one index, kept by every element-wise operation; shapes by lower and upper bounds |
| C125 | `romb_dfx` with its extra axis, band properties, Kbip and the spectral functions over any operand kind; `np.vectorize` of the solver | the relation of C124 on arrays with a leading axis (rows of samples), folds over sub-bands; over `R` the single values are BandModel's |
| C126 | the scattering mechanisms, `scattering`, `spectral`, `vs_to_td`, `vs_to_gm` and the other conductivity models over any operand kind | the relation of C124; dictionaries of arrays follow the dictionary of single values key by key; over `R` the single values are those of ScatModel, DebyeModel, KlemModel |
| C127 | `cumulative` (scipy's cumtrapz along an axis), `cumulative_mfp_t` (extra last axis of bins), `__call__` via vquad | induction along the axis; the relation of C124 on arrays with a trailing axis; reuse of C120 |
| C128 | kernel names, `interp_gpr` with name, gradient and one regularisation per point | both kernels are power series with positive coefficients, hence positive definite at distinct points (the moments of a non-zero vector at distinct points cannot all vanish); dual coefficients are unique |
| C129 | `vinterp(method='gpr')` and `mapping` with a scalar or array `regular`, and its likelihood with an oracle for the log-determinant | the same on pairs of points; the constant matrix is positive semi-definite; symmetry read off two entries |
| C130 | `romb_dfx` at every order `ndiv` (RombModel), as a sequence | the Romberg row as Richardson extrapolation of trapezoid sums: every entry stays within `exp(4/3)` times the worst remaining trapezoid error, so it converges when they do (also with a wrong end sample); the substituted integrand extends continuously to both ends because the weight beats every power of the logarithm; change of variables (C59) and a limit of the upper end |
| C131 | the second branch of `_N` (NdosModel) with an oracle for `vquad`, exact on continuous functions by hypothesis | integration by parts between `dos` and `idos` (zero derivative of the difference), the boundary term vanishes because the occupation decays exponentially |
| C132 | `AttrDict.__getattr__` with Python's attribute protocol (AttrModel): items, instance attributes, methods and properties | induction over the history; the two maps `stored` and `assigned` are the specification |
| C133 | the eight mechanism constructors with keyword binding and defaults, their `__call__` reading the container, `KappaDebye.__init__`, `scattering`, `spectral`, `__call__`, `_cal` on live containers (LiveModel over VarModel, ScatModel, DebyeModel) | containers keep their keys and each entry shows the number its argument stands for (invariants of C78-C80); the stored names decide the same case as the plain constructor, by cases on the class; extensionality for the component functions |
| C134 | the printing of numbers (`'%.4f'`, `'%.6f'`, `'%.6E'`, CPython's exact half-even decimal printing) and `float(text)` transcribed over exact rationals (NumModel); the files are those of C113 | texts: digit lists with values, uniqueness of a digit row without padding, so each text is characterised by an iff; rounding: nearest multiple with ties to even, monotone, hence unique and idempotent; reading: one lemma for every literal, and inversion of the parser |
| C135 | killing a process that writes files: open truncates, text reaches the disk in any pieces, close; the written files of every command in order, kappa's four tables and configuration included (CrashModel over TxtModel, CliModel, CmdModel, FmtModel, RunModel) | an invariant of every reachable state (complete files, a beginning, untouched files), reachability of each; a command is its list of writes as a function of its input files, so agreement on the inputs carries over; prefixes of printed tables: cut lines, cut words, cut numbers (over NumModel) |
| C136 | EFopt, PFmax, the UWT factor over the transport integrals of SpbModel (romb_dfx limit from C130) | closed forms of the integrals (logarithm and dilogarithm as an integral), sign of the derivative: a strictly decreasing factor above 0, positive below; the zero located by polynomial bounds of exp and of w/(1-exp(-w)) with rational arithmetic |
| C137 | the extrema of RSPB.PFr over RspbModel | the sign of the slope is that of a function whose own derivative has the sign of a cubic with one positive root (shape for every delta from 0 to 0.2); zeros located by polynomial bounds of exp with rational arithmetic |
| C138 | methods S and L of BandModel over spb_trs of SpbModel (limits from C130) | closed forms of the three integrals by iterated primitives; slope of 2F1/F0-x negative because v phi(v) < 2 G(v), existence by the intermediate value theorem between bounds at both ends |
| C139 | the limits (C130, C131) of the quadratures of idos and trs of the three band classes, as functions of EF | the occupation grows with EF, at most by exp(dEF/kT), pointwise in energy, so the integral does and its logarithm is Lipschitz; intermediate value theorem between bounds at both ends |
| C140 | `_N` of a MultiBands (BandModel) of bands whose quadratures (RombModel) are refined without end | each band's number of states is convex in EF because idos is (its derivative, dos, does not fall), sums of convex functions of affine arguments are convex; a convex continuous function unbounded on both sides takes each value above its minimum exactly twice |
| C141 | the limits (C130) of K_0 and K_1 for any rising trs; LinearBand | trs rises, so (trs(E) - trs(E*)) (E - E*) >= 0 (Chebyshev) with E* the mean energy of the constant distribution; the constant distribution's integrals have elementary antiderivatives |
| C142 | the limits (C130) of K_0 and K_1 of two distributions; the three trs | with E* the mean energy under sigma, (tau(E) - (tau/sigma)(E*) sigma(E)) (E - E*) >= 0 integrates to the claim; the ratios of the Kane factors are monotone by a polynomial identity |
| C143 | `_K_n` of a MultiBands, S, CL and L of bands and MultiBands (BandModel) | additivity of K_n (C64), positivity of K_0 (C63); Cauchy's inequality by induction over the bands |

## Not modelled

Floating-point rounding (except C09), texts of log messages and of exceptions, argparse (options are arguments of the model; the actions that
store them are modelled), numpy dtype casting except where stated, arrays of rank above one except where stated, non-ASCII text, nan/inf as
inputs except where stated, abstract base classes (`BaseDevice`, `BaseKappaModel`, `BaseScattering`: only their concrete methods), `do_help`,
`_wraptxt`, `info.py`, configparser's own syntax (its result is the input of the model, except for the lines rewritten in C96), performance.
Tags containing regular-expression metacharacters are outside C96.
