p('C125', 'Band properties on arrays of Fermi levels and temperatures: each element is the single property',
  "N, K_0, K_1, K_2, C, CS, S, PF, CL, L, Ke, U, CCRH, RH, UH and NH of an uncompiled band, and of a MultiBands of at least one band, accept arrays EF and T. When these can be broadcast to a common shape s, every property returns an array of shape s and its element at every index is the property for the single Fermi level and temperature standing there (the quadrature adds an axis in front and sums it away again), provided the spectral functions of the bands broadcast element by element; APSSPB, APSSKB and LinearBand do. Kbip of a MultiBands likewise. EF and T without common shape raise ValueError. For a band without Hall function (LinearBand) CCRH returns None and RH, UH, NH raise TypeError; for a MultiBands with one such sub-band all four raise TypeError. solve_EF on arrays has the common shape of value and T, each element solved by itself; if the solver raises for some element, the error of the first such element in row order is raised; an empty array raises ValueError, and so do arrays without common shape. The single values are the ones C58-C72 speak of.",
  'all array shapes and contents, all indices, every arithmetic (rounding included), all lists of bands and offsets, all properties',
  'shapes and pairings are unbounded in rank and size; tests evaluate scalars or one list',
  ['src/teflow/bandlib.py:romb_dfx', 'src/teflow/bandlib.py:BaseBand', 'src/teflow/bandlib.py:MultiBands', 'src/teflow/bandlib.py:MultiBands.Kbip', 'src/teflow/bandlib.py:BaseBand.solve_EF', 'src/teflow/bandlib.py:APSSPB', 'src/teflow/bandlib.py:APSSKB', 'src/teflow/bandlib.py:LinearBand'])
