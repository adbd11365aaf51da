p('C141', 'The Seebeck coefficient of a single band has the sign of its carriers, and a floor',
  "For every T > 0, every Fermi level and every transport distribution trs that is continuous, bounded by a power of E, positive and non-decreasing above the band edge (APSSPB, APSSKB with Eg>0 and LinearBand qualify), "
  "transport theory gives exactly one Seebeck coefficient S, in k/e; the values returned by method S approach sign*86.17...*S as the quadrature is refined (the code's own is the sixth of these), and "
  "S >= (1+exp(-x)) ln(1+exp(x)) - x > 0 with x = EF/kT. So a conduction band (sign -1) is never p-type in this limit, also when EF lies deep inside the band where the integrand changes sign. "
  "For LinearBand S equals that closed form at every Fermi level and sigma0, falls strictly with EF, and takes each positive value at exactly one Fermi level.",
  'all temperatures, Fermi levels, qualifying transport distributions and band parameters',
  'the bound is over a continuum of Fermi levels and over all distributions; the sum behind K_1 has terms of both signs',
  ['src/teflow/bandlib.py:BaseBand.S', 'src/teflow/bandlib.py:BaseBand._K_n', 'src/teflow/bandlib.py:LinearBand.trs', 'src/teflow/bandlib.py:APSSKB.trs', 'src/teflow/bandlib.py:APSSPB.trs'])
