p('C133', 'Models with fitting variables compute what the same models with plain numbers compute',
  "A scattering mechanism or Debye model can be built from numbers and variables in any mixture. Its constructor accepts them when it accepts plain numbers under the same keyword names, and otherwise raises the same exception. After any later history of assignments, syncs and creations, every argument stands for one number: itself, or its variable's true value times its scale. If the variables used are free, the mechanism's rate, and the Debye model's scattering rates, spectral and total conductivity, are those of the object built from these numbers. During one evaluation of a fit, and after a whole fit however often the optimiser evaluated the model, the same holds when constrained variables are used too, provided each of them is listed, after the constrained ones it depends on; the listed free variables then stand for the arguments of the last evaluation. Finding: outside such an evaluation a mechanism that uses a constrained variable keeps computing with the old number after the variable it depends on was assigned, until that constrained variable is synced itself.",
  'every mechanism class, keyword arguments, history of operations, sequence of optimiser calls, frequency and temperature', 'must hold after every history of assignments and fits',
  ['src/teflow/kappa.py:BaseScattering', 'src/teflow/kappa.py:KappaDebye', 'src/teflow/kappa.py:Parameters', 'src/teflow/kappa.py:BaseKappaModel.fit', 'src/teflow/kappa.py:BaseKappaModel._cal', 'src/teflow/kappa.py:ThreePhonon', 'src/teflow/kappa.py:GrainBoundary', 'src/teflow/kappa.py:FreeElectrons'])
