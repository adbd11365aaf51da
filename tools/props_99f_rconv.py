p('C130', 'The Fermi quadrature converges to the Fermi integral as ndiv grows',
  "For every T>0, Fermi level, power k and every integrand func(E,T) that is continuous for E>=0 and bounded there by a power of E, the values romb_dfx returns for ndiv = 0, 1, 2, ... converge, although both end nodes carry an artificial energy, and the limit is the integral over all energies E>0 of func(E,T) ((E-EF)/(kB*T))^k times minus the derivative of the Fermi-Dirac function. This covers idos, trs and hall of APSSPB and APSSKB (Eg>0) and idos and trs of LinearBand for all parameters; for a constant func and k=0 the limit is the constant times the occupation of the band edge.",
  'every integrand, power, Fermi level and temperature; limit over all orders', 'a limit over infinitely many orders for every integrand',
  ['src/teflow/bandlib.py:romb_dfx', 'src/teflow/bandlib.py:APSSPB', 'src/teflow/bandlib.py:APSSKB', 'src/teflow/bandlib.py:LinearBand'])
p('C131', 'Counting carriers with idos or with dos gives the same number',
  "N uses the quadrature of idos exactly if use_idos is set and the class has idos, else the integral of dos times the Fermi-Dirac function, split at max(0,EF). For every dos with integral idos (idos(0)=0, idos'=dos for E>0), both continuous for E>=0 and idos bounded by a power, and every T>0 and EF: the quadrature of idos converges as ndiv grows, its limit is the number of occupied states (the integral over E>0 of dos times the occupation), and the second way returns exactly that number if its integrator is exact. In particular this holds for APSSPB, APSSKB and LinearBand.",
  'every density of states, Fermi level and temperature', 'an identity between improper integrals for every density of states',
  ['src/teflow/bandlib.py:BaseBand._N', 'src/teflow/bandlib.py:romb_dfx', 'src/teflow/bandlib.py:APSSPB'])
