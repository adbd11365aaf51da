K = 'src/teflow/kappa.py'
p('C77','Fitting variables: creation and bounds',
 "Over every history of creating variables and parameter containers, assigning, syncing and writing to containers: a variable's stored value stays between its bounds. An assignment outside the bounds raises ValueError and changes nothing; inside, a free variable then reads as the assigned value and a constrained one reads as before. Creating a tag that exists already does nothing, whatever the arguments. A creation refused for its initial value leaves a tag whose value cannot be read, assigned or synced (AttributeError) but which a later creation completes as if it were new. A creation refused for a constraint that is not callable (ValueError) takes the tag for good: every later creation of it succeeds silently and its value can never be read.",
 "every history, tag, bounds, constraint and value", "state over unbounded histories", [K+':Variable.__new__', K+':Variable.__init__', K+':Variable.value'])
p('C78','Parameter containers follow their variables',
 "After Parameters(k=..., ...), in every later state without direct writes: an entry given as a number keeps it and an entry given as a free variable holds its value times its scale. An assignment rewrites exactly the entries that refer to the assigned variable and changes no other variable. A direct write to an entry changes that entry only, no variable, and is overwritten when its variable is synced.",
 "every history, container and variable", "propagation over unbounded histories and aliasing", [K+':Parameters.__init__', K+':Variable.register', K+':Variable.sync', K+':Variable.value'])
p('C79','Constrained variables',
 "The declared dependencies always determine exactly one true value of every variable. A variable constrained on free variables only always reads as it. A calculation step that lists constrained variables after those they depend on leaves every listed variable and every entry referring to it right. Otherwise not: in the example of the class documentation (A=10, B=2A, C=A+B), after A=20 C reads 40 instead of 60 until B is synced, and a calculation step that lists C before B leaves the container at 40.",
 "every history, dependency graph and calculation step", "all dependency graphs and orders", [K+':Variable.value', K+':Variable.sync', K+':BaseKappaModel._cal'])
p('C80','What a fit leaves behind',
 "fit: however often and wherever within the bounds curve_fit evaluates the model, afterwards the free variables listed hold the arguments of its last evaluation (not the optimum it returns), the constrained ones listed in dependency order follow, and no other variable has changed. Without a free variable nothing happens; p0 or bounds raise ValueError. A step with the wrong number of arguments raises ValueError and changes nothing; one with an argument out of bounds raises ValueError after the earlier arguments have been assigned.",
 "every sequence of evaluations by the optimiser", "the optimiser's evaluations are arbitrary", [K+':BaseKappaModel._cal', K+':BaseKappaModel.fit', K+':KappaKlemens._cal', K+':KappaKlemens.fit', K+':parse_KappaFit'])
p('C81','Phonon scattering rates: sign, growth and frequency laws',
 "For non-negative parameters (positive lengths, volumes and velocities) every rate is non-negative and never falls with frequency (for three-phonon processes nor with temperature). Three-phonon and stacking-fault rates scale with w^2, point defects with w^4, dislocations are a*w^3+b*w, Cahill proportional to w, grain boundaries constant and never larger for larger grains. Nanoparticles stay strictly below the geometrical limit and vanish without contrast.",
 "every parameter, frequency and temperature", "inequalities over all reals", [K+':ThreePhonon', K+':PointDefect', K+':GrainBoundary', K+':Nanoparticles', K+':Dislocations', K+':StackingFaults', K+':CahillScattering'])
p('C82','Phonon scattering rates: units',
 "In SI units the point-defect, grain-boundary, stacking-fault, Cahill and nanoparticle rates are exactly the documented formulas. The three-phonon rate is the documented one with the neutron mass in place of the atomic mass unit, 0.9914 to 0.9915 of it. The dislocation rate has the documented strain term (its constant right to 1e-15) but vs (in km/s) times the documented core term.",
 "every parameter, frequency and temperature", "unit conversion for all inputs", [K+':ThreePhonon', K+':PointDefect', K+':GrainBoundary', K+':Nanoparticles', K+':Dislocations', K+':StackingFaults', K+':CahillScattering'])
p('C83','Phonon scattering by free electrons',
 "The reduction factor computed from EF lies strictly between 0 and 1, never falls with EF (rises as long as the exponent is at most 23), is the documented expression where its exponent is at most 23 and larger than it otherwise; frequencies below 1e-6 use the value at 1e-6. The rate is positive and below coef*w. In SI units the coefficient is the documented one to 1e-7 and the exponents the documented ones, every term to 1e-14.",
 "every parameter, Fermi level, frequency and temperature", "inequalities over all reals", [K+':FreeElectrons.Rep', K+':FreeElectrons._cal_Rep', K+':FreeElectrons.coef', K+':FreeElectrons.__call__'])
p('C84','Required parameters of scattering mechanisms',
 "ThreePhonon and PointDefect raise ValueError exactly if coef is missing and one of the parameters it would be computed from is. Nanoparticles raises it exactly if both N1 and phi or one of vs, R, D0, D1 is missing, and a given phi takes precedence over N1 (otherwise phi=N1*4/3*pi*R^3). FreeElectrons is constructed exactly if, for each of coef and Rep that is missing, all parameters it is computed from are given. Given non-zero coef and Rep are used as they are; a given Rep or coef equal to 0 is treated as absent and the evaluation raises KeyError.",
 "every combination of given and missing parameters", "all combinations and values", [K+':ThreePhonon.__init__', K+':PointDefect.__init__', K+':Nanoparticles.__init__', K+':Nanoparticles.phi', K+':FreeElectrons.__init__', K+':FreeElectrons.coef', K+':FreeElectrons.Rep'])
p('C85','Putting a Debye model together',
 "KappaDebye(vs, td, components) succeeds exactly if every component is a scattering mechanism or a kappa model, no two mechanisms and no two models share a tag and there is at least one mechanism; mechanisms and models keep their order. Otherwise the first component that does not fit decides: NotImplementedError for an unknown type, ValueError for a repeated tag; without mechanism ValueError. scattering() reports each mechanism's rate under its tag and then their sum as 'total'.",
 "every list of components", "all lists", [K+':KappaDebye.__init__', K+':KappaDebye.scattering'])
p('C86','Spectral thermal conductivity',
 "spectral at frequency w divides one value by each mechanism's rate, or with accumulate by the sum of the rates so far under labels A, A+B, A+B+C that never coincide (as many entries as mechanisms). The value is 0 above the Debye frequency, w below 1e-6 counts as 1e-6, otherwise it is the documented expression in SI units with hbar right to 1e-14, positive and below its classical limit. With positive rates each further mechanism lowers the accumulated entry and its reciprocal is the sum of the reciprocals of the single entries.",
 "every list of mechanisms, frequency and temperature", "all numbers of mechanisms and inequalities over all reals", [K+':KappaDebye.spectral', K+':KappaDebye._spectral_factor', K+':KappaDebye.wd'])
p('C87','Lattice thermal conductivity of the Debye model',
 "For mechanisms with continuous positive rates between 1e-6 and the Debye frequency (taking the quadrature as exact): adding a mechanism lowers the conductivity, which stays positive; nscat=n>0 is the conductivity of the first n mechanisms alone, n at least their number or 0 that of all, and without nscat the additional models are added; the order of mechanisms does not matter; multiplying all rates by c divides it by c; with rates that do not depend on temperature it rises with temperature; if the total rate is never below r it is below kB*wd^3/(6*pi^2*vs*r).",
 "every list of mechanisms, temperature and parameters", "inequalities between integrals of arbitrary functions", [K+':KappaDebye.__call__', K+':KappaDebye._spectral_sum', K+':KappaDebye._spectral_factor'])
p('C88','Cumulative thermal conductivity',
 "cumulative starts at 0, has as many values as frequencies and each step is the trapezoid of the spectral values, so it never falls for increasing frequencies. cumulative_mfp_t (non-negative shares) never falls with the path, lies between 0 and the sum of all shares and reaches it; but it is never more than the shares of the bins with both ends' mean free paths below the given path, and strictly less if the larger end of such a bin is within the bin's own width of the path: each bin is counted one width too late. More than one temperature or bins narrower than 1e-5 rad/ps raise ValueError.",
 "every spectral function, rate, path and number of bins", "all functions and bin numbers", [K+':KappaDebye.cumulative', K+':KappaDebye.cumulative_mfp_t'])
p('C89','Debye temperature, Gruneisen parameter and mean sound velocity',
 "vs_to_td is the documented Debye temperature in SI units to 1e-14 and its cut-off frequency gives exactly three modes per atom. vs_to_gm is the documented function of the Poisson ratio, positive exactly for (v1/v2)^2>4/3, rising with v1 and below 9/2. vs_mean lies between v1 and v2 for every integer p, its p-th power is the mean of the p-th powers, and p=0 gives the geometric mean. Arrays of velocities give a single number: for n equal pairs v if p is not 0, but v^n for p=0.",
 "every velocity, volume, Poisson ratio and exponent", "identities and inequalities over all reals and integers", [K+':KappaDebye.vs_to_td', K+':KappaDebye.vs_to_gm', K+':KappaDebye.vs_mean'])
p('C90','Klemens model of alloys',
 "With Kpure>0 the conductivity lies strictly between 0 and Kpure for every composition X and, as soon as u^2>=1e-12, is Kpure*atan(u)/u and below Kpure*(pi/2)/u, u^2 being the documented expression in SI units. X and 1-X give the same value. On [0,1/2] it never rises with X (falls as soon as u^2>1e-12 at the larger X), nor with G0 for 0<X<1. X outside 0..1 gives the value at X=0, Kpure*atan(1e-6)/1e-6.",
 "every positive parameter and every composition", "inequalities over all reals", [K+':KappaKlemens.u2', K+':KappaKlemens.__call__'])
p('C91','Disorder parameters from occupations',
 "fluctuation with as many rows of masses (radii) as of occupations, each of the same length, is the documented expression, the weights being the sums of the rows, if all sums are 1 to 1e-5+1e-8, whatever renorm; otherwise each row is divided by its sum, or ValueError with renorm=False. So multiplying the rows by numbers of sites that are not all 1 changes nothing. With exact sums, non-negative occupations and positive masses Gamma_M is never negative, zero exactly if no sublattice is occupied by different masses, and depends on mass ratios only; a binary sublattice gives x(1-x)(a-b)^2/mean^2, likewise for radii. No occupations, or a row of masses or radii longer than every row of occupations, raise ValueError; a mass missing at the end of a shorter row silently counts as 1.",
 "every number of sublattices and species, all occupations, masses and radii", "all list lengths and reals", [K+':KappaKlemens.fluctuation'])
p('C92','Configurational entropy',
 "For non-negative occupations that sum to 1 on every sublattice the reported entropy lies between 0 and the sum of ln(number of species), is 0 exactly if every sublattice is occupied by a single species, and is minus the documented expression if no occupation lies strictly between 0 and 1e-12; so with any mixed occupation the documented expression is negative and the returned value positive.",
 "every number of sublattices and species, all occupations", "all list lengths and reals", [K+':KappaKlemens.fluctuation'])
p('C93','Slack, bipolar and power-law models',
 "KappaSlack gives the documented expression for a number A and for the names 'Julian' and 'Qin'; evaluating with 'Constant' raises KeyError and with any other name AttributeError. Julian's coefficient is positive and below 3.43e-6 for every non-zero gm, Qin's between 0 and 1 and rising for gm>0. The conductivity is proportional to 1/T and, with td^3=N*ta^3, to N^(1/3)*ta^3. The bipolar term is the documented one to 1e-15 in kB/e, positive, below Kbp*(T/300)^p for Eg>0, falls with Eg and rises with T for p,Eg>=0 not both 0. The power law gives Kamb+K0 at 300 K, for Kamb>0 stays above K0, falls with T for n<0 and rises for n>0.",
 "every parameter and temperature", "identities and inequalities over all reals", [K+':KappaSlack', K+':KappaBipolar', K+':KappaPowerLaw'])
