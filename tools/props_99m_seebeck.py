p('C138', 'SPB: the Seebeck coefficient determines the Fermi level',
  "The Seebeck coefficient and Lorenz number that the transport integrals give the acoustic-phonon parabolic band exist and are unique for every sigma0 > 0, T > 0 and every Fermi level, and the values returned by S and L "
  "(with the sign of the carriers and the constants 86.17... uV/K and 0.7425...e-8 W Ohm/K^2) approach them as the quadrature is refined, the code's own being the sixth of these. "
  "The Seebeck coefficient is positive for every Fermi level and strictly falling in it, and every positive value is taken at exactly one Fermi level, so a measured Seebeck coefficient fixes the Fermi level; "
  "two states with the same Seebeck coefficient have the same EF/T and the same Lorenz number, whatever their temperatures and sigma0. "
  "With x = EF/kT, in units of k/e, S lies between 2-x and 2-x+exp(x) and the Lorenz number, in (k/e)^2, within 4.5 exp(x)+exp(2x) of 2 (the classical limits below the band edge), and for EF > 0 S is at most 9/x.",
  'all sigma0 > 0, T > 0, all Fermi levels, all positive Seebeck coefficients',
  'a test samples Fermi levels; the claim is existence, uniqueness and a limit over all of them',
  ['src/teflow/bandlib.py:BaseBand.S', 'src/teflow/bandlib.py:BaseBand.L', 'src/teflow/bandlib.py:BaseBand.solve_EF', 'src/teflow/bandlib.py:APSSPB.trs'])
