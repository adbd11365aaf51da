p('C40','ztdev.valuate tabulates cal_ZTdev',
 "When the optimisation succeeds, valuate returns one row (T_0, T_i, ZTdev_i) per temperature point; with allTemp=True the i-th row holds cal_ZTdev of the i-th efficiency between T_0 and T_i and the first row is (T_0, T_0, 0) with efficiency 0; with allTemp=False the single last efficiency is combined with EVERY hot-side temperature T_i, so only the last row describes the device (nan in every row if that efficiency is nan); if the search interval is inverted or the minimiser fails, valuate raises.",
 "every data length, every data set, every minimiser behaviour", "law over arrays of all lengths and all minimisers",
 [Z+':valuate', Z+':cal_ZTdev', Z+':optim_Yita'])
p('C41','simulate("scan") is unusable with float temperatures',
 "simulate(I_r='scan' or 'sweep') on a built device raises TypeError whenever the temperatures are floats (deltaT is an array used as list repeat count), and with a single pair of integer temperatures it raises ValueError unless Th-Tc equals numPoints+1 or 0; in those cases it returns one output per current of linspace(0,1,numPoints), i.e. equally spaced from 0 to 1.",
 "all devices, all numPoints, all integer temperature differences", "the accepted combinations are isolated points among all inputs",
 [E+':GenCore._simulate'])
p('C42','A layered composite never beats its best layer',
 "For layers with positive conductivities and widths, the figure of merit C*S^2/K formed from the effective vertical values, and the one formed from the effective parallel values returned by anilay, are both at most the largest figure of merit among the layers (Bergman-Levy bound).",
 "any number of layers, all positive values and widths, all Seebeck coefficients", "Cauchy-Schwarz type inequality for every number of layers",
 ['src/teflow/anisotro.py:anilay'])
p('C43','Modification factors and weight factors of a device',
 "For grid-point temperatures Tc<Th the modification factors are the trapezoid averages <(T-Tc)rho>, <(2T-Tc)S>, their ratios to <rho> and <S>, and the chain m0, m1=m0-RhoT, m2=m1-RhoT. The weight factors stored with calWeights are W_J = <T rho>/<rho>/(Th-Tc), W_T as coded, alpha_j = m_j/S(Th); consequently for constant properties W_J is (Tc+Th)/2/(Th-Tc) > 1/2 instead of the textbook 1/2, the denominator of W_T is exactly 0, and alpha_j = Th/S, Tmean/S, Tc/S carry the unit of 1/S although documented as dimensionless.",
 "all tables, all temperature spans, all device geometries", "identities over all tables",
 [E+':GenCore._get_mdfs', E+':GenCore._get_wgts'])
p('C44','A p-n pair is the sum of its two legs',
 "With equal end temperatures on both legs, a GenPair of total area A and length L with ratios rL=Ln/Lp, rA=An/Ap behaves exactly like a p leg (L, A/(1+rA)) carrying the current I and an n leg (L*rL, A*rA/(1+rA)) carrying -I: pair voltage = difference of the leg voltages, pair power and hot-side heat = sums of those of the legs, and the efficiency is the ratio of these sums.",
 "all property integrals, geometries, ratios and currents", "algebraic identity over all reals; unit tests check single devices",
 [E+':GenPair._get_itgs', E+':GenCore._simulate'])
