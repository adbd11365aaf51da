Z='src/teflow/ztdev.py'; E='src/teflow/engout.py'
p('C21','cal_Yita profile and p/n symmetry',
 "cal_Yita(u, data, allTemp=True) returns one efficiency per temperature point beginning with 0, the value without allTemp is its last element, the value at point i depends only on points 0..i and is 100*(1-Phi_0/Phi_i) with Phi_i = S_i*T_i + 1/u_i, where u_0 = u and 1/u_i = sqrt(1-u^2*(rho_i*K_i+rho_{i-1}*K_{i-1})*(T_i-T_{i-1}))/u - (T_i+T_{i-1})/2*(S_i-S_{i-1}) with u = u_{i-1} (SI units; where these numbers exist), and replacing (u, S) by (-u, -S) changes nothing.",
 "every data length, all real properties and u", "law over data arrays of all lengths",
 [Z+':cal_Yita'])
p('C22','cal_Yita never exceeds the Carnot limit',
 "For increasing positive temperatures and positive conductivities, if the relative current density and the Seebeck coefficient stay positive (sqrt arguments non-negative, u_i > 0), every efficiency returned by cal_Yita at point i is at most 100*(1-T_0/T_i) percent.",
 "every number of temperature points, all positive property profiles, every admissible u",
 "second-law bound for all profiles: induction over the recursion, no finite sample suffices",
 [Z+':cal_Yita'])
p('C23','cal_ZTdev inverts the textbook efficiency formula',
 "For 0<Tc<Th and ZT >= 0, if Yita = 100*(Th-Tc)/Th*(sqrt(1+ZT)-1)/(sqrt(1+ZT)+Tc/Th) then cal_ZTdev(Yita,Tc,Th) = ZT provided |Th*(1-Yita/100)-Tc| > 1e-3; when that quantity is at most 1e-3 in magnitude (efficiency within 1e-3/Th of the Carnot limit) cal_ZTdev returns 0 regardless of Yita; this quantity equals (Th-Tc)*(Th+Tc)/(Th*sqrt(1+ZT)+Tc), so the guard applies only to tiny temperature differences or huge ZT; below the Carnot limit (outside this band) the result is non-negative and strictly increasing in Yita for Yita >= 0.",
 "all temperatures, all ZT values", "algebraic inverse over the reals, including the guard region",
 [Z+':cal_ZTdev'])
p('C24','optim_u search interval and result passing',
 "optim_u searches between 0.01 and 1e-4*S0*C0/K0 when S0>0 and between 1e-4*S0*C0/K0 and -0.01 otherwise; with any bounded minimiser that returns a point of the interval whose value is not above that of any probed point, the returned efficiency is at least that of every probed u; for C0, K0 > 0 the interval is inverted (lower bound above upper bound) iff |S0|*C0/K0 < 100, and whenever it is inverted optim_u and optim_Yita raise ValueError (the bounded minimiser rejects it); otherwise optim_u returns None iff the minimiser reports failure, in which case optim_Yita raises TypeError; on success optim_Yita is cal_Yita (all temperatures) at the returned u.",
 "all data, all minimisers satisfying the contract", "ranges over all minimiser behaviours and data",
 [Z+':optim_u', Z+':optim_Yita'])
p('C25','Consistency of the generator outputs',
 "For every built GenLeg/GenPair with non-zero integrals and every reduced current r: I = r*Isc, Vout = (1-r)*Voc, Pout equals 1e-3*Vout*I (mV*A to W), Yita = 100*Pout/Qhot, Qhot is conduction <K>*A/L plus I*<(2T-Tc)S>/(Th-Tc) minus the part <(T-Tc)rho>/(<rho>*(Th-Tc)) of the Joule heat I^2*R, Vout = Voc - I*R, and scaling leg length by c (area by c) scales I, Pout and Qhot by 1/c (by c) leaving Vout and Yita unchanged.",
 "all property integrals, geometries and reduced currents", "algebraic identity over the reals",
 [E+':GenCore._simulate', E+':GenCore._get_prfs'])
p('C26','I_r="PowerMax" maximises the output power',
 "For every built device (Qx>0) the output power at I_r='PowerMax' is at least that at every other reduced current, with equality only at r=1/2.",
 "all devices, all reduced currents", "optimality over a continuum", [E+':GenCore._simulate'])
p('C27','I_r="YitaMax" maximises the efficiency',
 "For every built device with Zeng>0, 1+ZTp>=0 and the physical regime where the absorbed heat is positive on [0,1], the efficiency at I_r='YitaMax' is at least that at every reduced current r in [0,1].",
 "all devices in the regime, all reduced currents", "optimality over a continuum", [E+':GenCore._simulate', E+':GenCore._get_prfs'])
p('C28','Constant properties reproduce the textbook formulas',
 "For a leg with constant rho, S, K between Tc<Th sampled on any temperature grid containing both, build/simulate('YitaMax') give ZTeng = S^2/(rho*K)*(Th-Tc) (SI units restored), the maximal efficiency (Th-Tc)/Th*(M-1)/(M+Tc/Th) with M = sqrt(1+Z*(Th+Tc)/2), which lies below the Carnot efficiency, and feeding it into cal_ZTdev recovers Z*(Th+Tc)/2 (where the guard of cal_ZTdev does not apply).",
 "all constants, every grid, all temperature pairs", "closed-form identity over all reals and grids",
 [E+':GenCore._get_itgs', E+':GenCore._get_prfs', Z+':cal_ZTdev'])
p('C29','ratioArea="ZTengMax" is not the maximiser',
 "ZTeng of a p-n pair as a function of the area ratio An/Ap is maximal exactly at rL*sqrt(rho_n*K_p/(rho_p*K_n)) (temperature integrals). GenPair.build(ratioArea='ZTengMax') uses rL*sqrt(rho_p*K_n/(rho_n*K_p)), the reciprocal ratio, which attains the maximum iff rho_p*K_n = rho_n*K_p; otherwise another ratio gives strictly larger ZTeng.",
 "all positive integrals, all length ratios and area ratios", "optimality over a continuum; the formula looks plausible in symmetric tests",
 [E+':GenPair._get_itgs'])
p('C30','ratioArea="PFengMax" is not the maximiser',
 "PFeng of a p-n pair as a function of An/Ap is maximal exactly at sqrt(rL*rho_n/rho_p). GenPair.build(ratioArea='PFengMax') uses sqrt(rL*rho_p/rho_n), which attains the maximum iff rho_p = rho_n.",
 "all positive integrals and ratios", "optimality over a continuum", [E+':GenPair._get_itgs'])
p('C31','Polynomial mode uses rho in place of S in <T*S>',
 "With isPoly=True the integrals of rho, S, K and T*rho are the exact integrals of the given polynomials between Tc and Th, the end-point Seebeck coefficients are the polynomial's values, but the integral reported as <T*S> is that of T*rho; it equals the exact <T*S> for all Tc, Th iff the polynomials S and rho agree.",
 "all polynomials and temperature pairs", "identity over all polynomials", [E+':GenCore._get_itgs'])
p('C32','Trapezoid integrals of tabulated data',
 "For tabulated data on a strictly increasing grid, each of the integrals of rho, S, K, T*rho, T*S equals the sum of trapezoids between grid points Tc and Th, and the end-point Seebeck coefficients are the tabulated ones there; integrals over adjacent temperature spans add up; piecewise constant-extended interpolation makes integrals of positive properties between Tc<Th within the grid strictly positive, and Tc or Th outside the grid are silently treated as the nearest grid end.",
 "all grids, all tabulated values, all temperature spans", "additivity over every grid", [E+':GenCore._get_itgs'])
p('C33','simulate before build, and build options of GenPair',
 "For every sequence of build/simulate calls: simulate raises RuntimeError iff build has never succeeded on the object, otherwise it uses the profile of the latest successful build; an unknown I_r string raises ValueError; GenPair.build without arguments is build(ratioLength=1, ratioArea='ZTengMax'); GenPair.build always computes the weight factors, whatever calWeights is (the option dictionary is passed in its place).",
 "every history of build and simulate calls", "all call histories", [E+':GenCore._simulate', E+':GenCore._build', E+':GenPair.build'])
