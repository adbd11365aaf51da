p('C143', 'Several bands: the Seebeck coefficient is a mean, the heat is more than a sum',
  "For every uncompiled non-empty MultiBands of uncompiled bands whose transport functions are positive above their edges (any mix of conduction and valence bands and any offsets), at every EF and T > 0, exactly (no limit of the quadrature): "
  "C*S equals the sum of C_i*S_i over the bands, each at the Fermi level measured from its own edge, so S is the conductivity-weighted mean of the signed S_i and lies between the smallest and the largest of them; "
  "CL of the MultiBands is at least the sum of the CL_i, and its Lorenz number L at least the smallest L_i.",
  'every set of bands, offsets, Fermi level and temperature',
  'the bounds hold for any number of bands and any transport functions',
  ['src/teflow/bandlib.py:MultiBands._K_n', 'src/teflow/bandlib.py:BaseBand.S', 'src/teflow/bandlib.py:BaseBand.CL', 'src/teflow/bandlib.py:BaseBand.L'])
