p('C137', 'RSPB: the highest point of the power factor, and that it is only a local one',
  "For every positive factor and mobility and the default delta=0.075, PFr(Nr) grows strictly up to one reduced concentration, falls strictly up to a second one between 179.8 and 180, and grows from there on without bound "
  "(finding: beyond 15000 it is above the 'maximum' PFr_max, so PFr_max is the maximum only for the concentrations up to 14000). The first one is within 1e-4 of the constant 1.255 that valuate uses for Nopt; at 1.255 PFr is at least 0.9999999 of the highest value, "
  "PFr_max times factor and mobility is that value to 1e-7, and so is the PFmax of valuate for the factor PF0 (1.1e-7). With delta=0 there is one highest point only, between 1.2028 and 1.2029 (so Nopt of valuate is for the default delta, whatever delta is given), and PFr falls for ever after it.",
  'all positive factors and mobilities, all reduced concentrations, delta 0.075 and 0',
  'a test samples a range of concentrations; the claim is about the sign of a slope everywhere and about unbounded growth',
  ['src/teflow/bandlib.py:RSPB', 'src/teflow/bandlib.py:RSPB.PFr', 'src/teflow/bandlib.py:RSPB.valuate'])
