p('C140', 'MultiBands counts electrons and holes together: the Fermi levels of a concentration',
  "For every T > 0 and every non-empty list of sub-bands whose density of states is positive above the edge and does not fall with the energy (APSSPB, APSSKB with Eg>0 and LinearBand all qualify), at any offsets, "
  "the carriers N(EF, T) of an uncompiled MultiBands approach a total, as the quadratures are refined, that is positive. If all sub-bands are of one kind (all conduction or all valence) the total is strictly monotonic in EF "
  "(rising for conduction, falling for valence) and takes every positive value at exactly one Fermi level. If both kinds are present the total is electrons plus holes (finding: not their difference): it has a positive minimum, "
  "no concentration below it has any Fermi level, and each one above it belongs to exactly two Fermi levels, so solve_EF's answer depends on its search window.",
  'all temperatures, lists of qualifying sub-bands, offsets, Fermi levels and target concentrations',
  'a test samples a few targets and two bands; the counts of solutions range over a continuum of targets and over any number of bands',
  ['src/teflow/bandlib.py:MultiBands._N', 'src/teflow/bandlib.py:BaseBand.N', 'src/teflow/bandlib.py:BaseBand.solve_EF'])
