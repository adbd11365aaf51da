p('C139', 'A carrier concentration or a conductivity fixes the Fermi level',
  "For every T > 0 and every density of states that is positive above the band edge, with integral idos (both continuous, idos bounded by a power), the value that the quadrature of idos approaches as it is refined is the number of occupied states; "
  "it is positive, rises strictly with the Fermi level, by at most the factor exp((EF'-EF)/kT), stays below the limit of idos at high energy, and takes every positive value below that limit at exactly one Fermi level. "
  "So for APSSPB, APSSKB (Eg>0) and LinearBand each positive carrier concentration belongs to exactly one Fermi level. The same holds for the conductivity K_0 of the three classes, with the ceilings: none for APSSPB, "
  "(3/4) sigma0 Eg/kT for APSSKB and sigma0 for LinearBand (finding: for a conductivity at or above its ceiling no Fermi level exists, so solve_EF has nothing to find).",
  'all temperatures, band parameters, Fermi levels and target values',
  'a test samples a few targets; existence and uniqueness range over a continuum',
  ['src/teflow/bandlib.py:BaseBand.N', 'src/teflow/bandlib.py:BaseBand.C', 'src/teflow/bandlib.py:BaseBand.solve_EF', 'src/teflow/bandlib.py:APSSKB.trs', 'src/teflow/bandlib.py:LinearBand.trs'])
