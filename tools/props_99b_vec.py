p('C124', 'Generators on arrays of temperatures, ratios and currents: paired by broadcasting, not combined',
  "GenLeg and GenPair accept arrays of Tc and Th (a number counts as an array of one element). When they can be broadcast to a common shape s, build() succeeds, every profile that involves both temperatures has shape s (those of one temperature keep its shape), and at every index each profile holds what a leg with the single temperatures standing there gives. simulate(I_r) with an array of currents that can be broadcast with s to s' returns outputs of shape s' whose element at each index comes from the single temperatures and the single current standing there; at the greatest efficiency each index has its own optimal current. So n hot temperatures and n currents are paired one by one - all combinations need an extra axis - and two lists of different lengths above one raise ValueError, as do temperatures or ratios without common shape. For a pair, ratioLength and ratioArea may be arrays too: power factor, figure of merit, current, power, heat and efficiency get the common shape of everything, the other entries can be broadcast to it, and each index shows the result of the single pair. An empty list of temperatures raises IndexError, when the object is made. The single results are those of C25-C44, for measured data and for polynomials.",
  'all array shapes and contents, all indices, every arithmetic (rounding included), all data',
  'shapes and pairings are unbounded in rank and size; tests use scalars or one list',
  ['src/teflow/engout.py:GenCore._get_itgs', 'src/teflow/engout.py:GenCore._get_mdfs', 'src/teflow/engout.py:GenCore._get_wgts', 'src/teflow/engout.py:GenCore._get_prfs', 'src/teflow/engout.py:GenCore._simulate', 'src/teflow/engout.py:GenLeg.__init__', 'src/teflow/engout.py:GenPair.__init__', 'src/teflow/engout.py:GenPair._get_itgs'])
