p('C136', 'EFopt and PFmax are the maximum of the power factor of the acoustic-phonon parabolic band',
  "For every positive sigma0 and every positive temperature, the power factor of the parabolic band (conductivity times squared Seebeck coefficient, from the transport integrals over all energies above the band edge) has exactly one "
  "maximum as a function of the Fermi level; it grows strictly below it and falls strictly above it. EFopt(T) is within 1.1e-5 kT of that level, the power factor at EFopt(T) is the largest possible one up to one part in 10^9, and "
  "PFmax is the largest power factor up to 3.3 parts in a million: it is between 2.4 and 3.3 millionths too low (finding: the number in the code has fewer correct digits than it shows). "
  "The power factor PF that the code computes by quadrature tends to that of the theory when the quadrature is refined, and the conductivity to sigma0*ln(1+exp(EF/kT)). "
  "The factor between sigma0 and the weighted mobility UWT is the formula written beside it, to one part in 10^12.",
  'all positive sigma0, all positive temperatures, all Fermi levels',
  'a test compares a few Fermi levels with numerical integrals; the claim is about the maximum over all of them, for every temperature, of exact improper integrals',
  ['src/teflow/bandlib.py:APSSPB', 'src/teflow/bandlib.py:APSSPB.EFopt', 'src/teflow/bandlib.py:APSSPB.PFmax', 'src/teflow/bandlib.py:APSSPB.UWT', 'src/teflow/bandlib.py:romb_dfx'])
