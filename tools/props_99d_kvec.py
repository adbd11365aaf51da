p('C126', 'Scattering rates and spectral conductivity on arrays of frequencies and temperatures: each element is the single value',
  "Every scattering mechanism, scattering(w, T, with_total) and spectral(w, T, accumulate) of KappaDebye accept arrays w and T. When these can be broadcast to a common shape s, every array returned has shape s and its element at every index is the value for the single frequency and temperature standing there, under the same keys in the same order, provided the mechanisms broadcast element by element; every mechanism of the package does, except that free-electron scattering with parameters missing raises KeyError for all w and T (arrays and numbers alike). w and T without common shape raise ValueError. vs_to_td and vs_to_gm broadcast their two arguments in the same way (ValueError without common shape); KappaSlack with a numeric coefficient, KappaBipolar, KappaPowerLaw and KappaKlemens act element by element and keep the shape. The single values are the ones C81-C93 speak of.",
  'all array shapes and contents, all indices, every arithmetic (rounding included), all lists of mechanisms, both flags',
  'shapes and pairings are unbounded in rank and size; tests evaluate a few lists',
  ['src/teflow/kappa.py:KappaDebye.scattering', 'src/teflow/kappa.py:KappaDebye.spectral', 'src/teflow/kappa.py:KappaDebye.vs_to_td', 'src/teflow/kappa.py:KappaDebye.vs_to_gm', 'src/teflow/kappa.py:ThreePhonon', 'src/teflow/kappa.py:FreeElectrons', 'src/teflow/kappa.py:KappaKlemens', 'src/teflow/kappa.py:KappaBipolar'])
p('C127', 'Cumulative and total Debye conductivity on arrays: running trapezoids along an axis, sums over bins, one integral per element',
  "cumulative(w, T, accumulate, axis), axis counted from the front: when w has one axis, or as many axes as the common shape s of w and T, and its number of points fits the length of s along the axis, the result has the keys and shapes of spectral(w, T, accumulate), holds 0 at the start of the axis, and each further element adds the trapezoid of the two neighbouring spectral values over the frequency step; for a single axis of frequencies at one temperature this is C88's list. w with another number of axes or points, or w and T without common shape, raises ValueError. cumulative_mfp_t(mfp, T, accumulate, nbatch) with a T of one element and bins no narrower than 1e-5: the keys are those of spectral, each array has the shape of mfp (leading axes of length one added as T's rank demands) and holds at each index the sum over the bins of the bin's share for the mean free path there, with the spectral value at the bin's centre and the (accumulated) rates at its two ends; a T of any other size or narrower bins raise ValueError. Calling the model with arrays T and nscat gives the common shape, each element the quadrature for its own temperature and number of mechanisms, ValueError without common shape, and the exception of the first failing element in row order otherwise; without nscat it has T's shape, each element the integral over all mechanisms plus the additional models' values there.",
  'all array shapes and contents, all axes, all indices, all numbers of bins, all lists of mechanisms and models',
  'shapes, axes and bins are unbounded; tests evaluate one frequency list',
  ['src/teflow/kappa.py:KappaDebye.cumulative', 'src/teflow/kappa.py:KappaDebye.cumulative_mfp_t', 'src/teflow/kappa.py:KappaDebye.__call__', 'src/teflow/mathext.py:vquad'])
