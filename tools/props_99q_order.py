p('C142', 'The order of the band models by Seebeck coefficient',
  "If two transport distributions (continuous for E>=0, bounded by a power, positive for E>0) have a ratio tau/sigma that does not fall with the energy, then at every Fermi level and every T>0 the Seebeck coefficient of transport theory "
  "(which method S approaches as the quadrature is refined) of tau is at least that of sigma. Hence at equal EF and T, for all positive sigma0 of each, 0 < S(LinearBand) <= S(APSSKB with gap Eg) <= S(APSSKB with gap Eg' >= Eg) <= S(APSSPB), in magnitude: "
  "non-parabolicity can only lower the Seebeck coefficient.",
  'all pairs of such distributions, Fermi levels, temperatures, gaps and prefactors',
  'the inequality ranges over a continuum of Fermi levels and temperatures and over all pairs of distributions',
  ['src/teflow/bandlib.py:BaseBand.S', 'src/teflow/bandlib.py:APSSPB.trs', 'src/teflow/bandlib.py:APSSKB.trs', 'src/teflow/bandlib.py:LinearBand.trs'])
