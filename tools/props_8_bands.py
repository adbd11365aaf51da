B='src/teflow/bandlib.py'
p('C58','The Fermi integrals of every band model are positive sums over positive energies',
 "For every Fermi level EF, temperature T>0 and order ndiv (2^ndiv intervals, default 6) there is one list of 2^ndiv+1 positive energies with non-negative weights (not all zero) such that, for every function f(E,T) and every power k, the integral returned by the quadrature is exactly the weighted sum of ((E-EF)/(kB*T))^k*f(E,T) over that list. Hence the integral is linear in f, depends on f only at positive energies, is non-negative for non-negative f when k is 0 or 2, positive for positive f when k is 0, and its values for k=0,1,2 satisfy K1^2 <= K0*K2. The Romberg rule on which it rests gives every sample a weight between 1/5 and 3/2 at every order, so no sample is ever subtracted.",
 "every integrand, power, order, Fermi level and positive temperature", "the sign of every Romberg weight and the place of every node for all EF, T", [B+':romb_dfx', B+':BaseBand._K_n'])
p('C59','The quadrature substitution is the exact change of variables of the Fermi window',
 "With x(t)=3*ln(1/t-1) the weight used at t is exactly the derivative of the Fermi-Dirac function f(x(t)) with respect to t, so that for every continuous g and power k the integral of g(x(t))*x(t)^k*weight(t) over any [a,b] inside (0,1) equals the integral of g(x)*x^k*(-df/dx) between x(b) and x(a). The sampled range 0<t<width corresponds, decreasingly, to exactly the energies above the band edge E=0.",
 "every continuous integrand, power and interval", "an identity of integrals over all functions", [B+':romb_dfx'])
p('C60','Compiling one band changes nothing but the speed',
 "For every band (with _N, _K_n, _CCRH given by its spectral functions), Fermi level and temperature, after compile(EF, T, max_level) every property called without arguments, or read as band[name], has exactly the value that the uncompiled property has at (EF, T), provided max_level covers the integrals it needs (the default 2 covers all; otherwise IndexError). Of an uncompiled band every property called without EF or without T raises TypeError (only CCRH of a band without Hall function returns None). band['EF'] and band['T'] give the compiled pair, other keys raise KeyError, and any key of an uncompiled band raises RuntimeError. clear() restores the uncompiled band and compiling again forgets the former state. If the sign of a compiled band is changed afterwards (as MultiBands.append does) the Hall integral keeps the old sign.",
 "every band, property, Fermi level, temperature, max_level and prior state", "equality over all states of the cache", [B+':BaseBand.compile', B+':BaseBand.fetch', B+':BaseBand.__getitem__', B+':BaseBand.clear'])
p('C61','A compiled band ignores EF and T; what solve_EF guarantees',
 "Once an object (single or multiple bands) is compiled, every property returns the same for whatever EF and T it is called with; so solve_EF on a compiled object hands the root finder a constant residual and its answer does not depend on how the property varies with EF. On any object, if the root finder reports convergence, the Fermi level returned makes property(EF,T)-value as small as the root finder guarantees; if it does not converge nan is returned; exceptions pass through.",
 "every object, property, target and root finder", "all cache states, all root finders meeting the contract", [B+':BaseBand.fetch', B+':BaseBand.solve_EF'])
p('C62','Identities between the reported band properties',
 "For one band or several, compiled or not, whenever the values exist and C is not 0: PF = 1e-6*S^2*C and CS = C*S exactly; Ke = CL*T exactly and 1e-6*L*C equals CL to a relative 1e-15 (L uses a rounded constant); sign*q*(N*1e19)*U = C; UH = RH*C, CCRH = RH*C^2, sign*q*(NH*1e19)*RH = 1 and sign*q*(NH*1e19)*UH = C.",
 "every object, Fermi level and temperature", "algebra over all values of the integrals", [B+':BaseBand.PF', B+':BaseBand.S', B+':BaseBand.L', B+':BaseBand.Ke', B+':BaseBand.CL', B+':BaseBand.U', B+':BaseBand.RH', B+':BaseBand.UH', B+':BaseBand.NH'])
p('C63','Conductivity, Lorenz number and electronic thermal conductivity are never negative',
 "For every band whose transport function is positive above its edge, and every non-empty MultiBands of such bands (any mix of conduction and valence bands and offsets), at every Fermi level and temperature T>0: C > 0, CL >= 0, L >= 0 and Ke >= 0, in spite of the differences they are computed from.",
 "every transport function, set of bands, Fermi level and temperature", "needs the Cauchy-Schwarz inequality for the quadrature over all inputs", [B+':BaseBand.L', B+':BaseBand.Ke', B+':MultiBands._K_n', B+':romb_dfx'])
p('C64','MultiBands adds up its bands, compiled or not',
 "N, C, C*S and CCRH of an uncompiled MultiBands are the sums of the same property of its bands, each at the Fermi level measured from its own edge (EF-delta for conduction, delta-EF for valence bands). If the band objects are distinct and all have a Hall function, then after compile(EF,T) every property without arguments equals the property at (EF,T) after clear(), whatever was compiled before. If one object is entered twice with different deltas, the compiled N is twice the value at the last delta instead of the sum. If the bands were compiled elsewhere, an uncompiled MultiBands returns the same value for every EF (and T, except Ke). With a band without Hall integral (LinearBand) compile raises TypeError after compiling the sub-bands. A property of an uncompiled MultiBands with at least one band called without EF raises TypeError.",
 "every heap of band objects, list of entries, property, EF and T", "aliasing and cache state over all histories", [B+':MultiBands._N', B+':MultiBands._K_n', B+':MultiBands._CCRH', B+':MultiBands.compile', B+':MultiBands.clear', B+':LinearBand._CCRH'])
p('C65','Bipolar thermal conductivity',
 "For an uncompiled MultiBands with conduction and valence bands of positive conductivity and T>=0, Kbip is non-negative and the total Ke is exactly the Ke of the conduction bands alone plus the Ke of the valence bands alone plus Kbip. With only one kind of band Kbip is 0. After compile(EF,T) (distinct bands, max_level at least 1) Kbip() is Kbip(EF,T).",
 "every set of bands, EF and T", "algebra over all integrals and any number of bands", [B+':MultiBands.Kbip', B+':MultiBands._K_n'])
p('C66','Guessing band types from offsets',
 "guess_btypes: if no delta is within 1e-6 of zero, every positive delta is C and every negative one V. If some are within 1e-6 of zero and the others all have one sign (at least one of them), all bands are of that sign's type. If the others have both signs or there are none, ValueError. These cases are exhaustive.",
 "every list of offsets", "all lists", [B+':MultiBands.guess_btypes'])
p('C67','Constructing a MultiBands',
 "MultiBands(bands, deltas, btypes) raises ValueError if bands and deltas differ in length. With one type it applies to all bands; with any other number of (recognised) types the result has as many entries as there are types at most: bands beyond the types are silently dropped, extra types ignored; without types they are guessed from all deltas (ValueError if that fails; TypeError for deltas given as text). Only the first letter of a type counts, in either case. Each band object is left with the sign of its last entry; nothing else about it changes. append refuses a non-band, an unconvertible delta, an unknown type or an unguessable one with ValueError (empty type: IndexError), changing nothing. A compiled MultiBands keeps its old numbers after append or extend.",
 "every list of bands, deltas and types", "all lengths and aliasings", [B+':MultiBands.__init__', B+':MultiBands.append'])
p('C68','Extending a MultiBands',
 "m.extend(other) appends other's entries with their offsets in order and changes no band. m.extend(m) for a non-empty m never returns: the loop reads the list it is appending to.",
 "every pair of MultiBands", "non-termination for every number of steps", [B+':MultiBands.extend'])
p('C69','Band models: the integrated density of states is the integral of the density, and how Kane compares with parabolic',
 "For every positive m_d (and Eg>0, or vF other than 0), in APSSPB, APSSKB and LinearBand idos(0)=0 and at every energy E>0 the derivative of idos is dos, which is positive. For one m_d, sigma0, T and E>0 the Kane model's trs is positive and at most the parabolic one, its dos at least the parabolic one, and trs falls short of the parabolic one by at most a fraction (E/Eg+4(E/Eg)^2)/3, so it tends to it for large Eg. APSSKB raises ValueError exactly when Eg is not positive.",
 "every energy, mass, gap and temperature", "derivatives and inequalities over all reals", [B+':APSSPB.dos', B+':APSSPB.idos', B+':APSSKB.dos', B+':APSSKB.idos', B+':APSSKB.trs', B+':APSSKB.__init__', B+':LinearBand.dos', B+':LinearBand.idos'])
p('C70','Hall function and parameters of the band models',
 "At every energy E>0, in both the parabolic and the Kane model, hall(E,T)*q*n(E) = K* times trs(E,T)^2 with n(E) the states below E (idos in cm^-3); K* lies in (0,1] and is 1 exactly for an isotropic mass ratio. UWT of a band made by from_UWT is the given number. from_DP gives m_d with m_d^3=Nv^2*m1*m2^2, Kmass=m1/m2 and sigma0*Ed^2 proportional to Nv*Cii times the mean of 1/m1, 1/m2, 1/m2; a missing or zero m2 means m2=m1.",
 "every energy, temperature, mass, mass ratio and deformation potential", "identities over all reals", [B+':APSSPB.hall', B+':APSSKB.hall', B+':APSSPB.Kstar', B+':APSSPB.UWT', B+':APSSPB.from_UWT', B+':APSSPB.from_DP', B+':APSSKB.from_DP'])
p('C71','How the band parameters act on the reported properties',
 "For APSSPB and APSSKB with positive m_d, sigma0, Kmass at every EF and T>0, compared with the band of m_d=1 and sigma0=1: C is multiplied by sigma0, N and NH by m_d^(3/2), and S and L are the same. In the parabolic model C, S, L and PF depend on EF and T only through EF/(kB*T), and N only through it and a factor T^(3/2).",
 "every parameter, Fermi level and temperature", "scaling of the quadrature over all inputs", [B+':APSSPB', B+':APSSKB', B+':romb_dfx'])
p('C72','valuate returns the band that reproduces the measured data',
 "APSSPB.valuate and APSSKB.valuate with positive temperature, conductivity and concentration, when the root finder converges: there is one Fermi level at which the band with the returned sigma0 and m_d has S equal to the measured S as closely as the root finder promises, L equal to the returned L, C exactly the measured conductivity and N (NH with hall=True) exactly the measured concentration; Ke = 1e-6*L*C*T, Ke+Kp is the measured K, UWT and (parabolic only) PFmax are those of that band, and Nopt its N (NH) at its EFopt. Keys whose data are missing are absent. Without temperature APSSPB.valuate returns only L, and it is the L of every parabolic band at every temperature at one reduced Fermi level where S is right. Without convergence the result is nan; exceptions pass through.",
 "every data point, subset of given data and root finder", "composition of root finding, scaling and quadrature over all inputs", [B+':APSSPB.valuate', B+':APSSKB.valuate', B+':BaseBand.solve_EF'])
p('C73','RSPB: reduced properties, their inverses and the Lorenz number',
 "For a non-zero (positive for U and L) factor and delta>-1: iSr undoes Sr for every Nr>0 and Sr undoes iSr wherever iSr is defined, that is for every S/factor other than ln(1+delta); iSr is positive exactly above that threshold; Sr falls with Nr towards factor*ln(1+delta). iUr and Ur are inverse to each other for Nr>-2 and U>0, Nr>=0 exactly when U<=factor, and Ur falls with Nr below factor. Lr rises with Nr>0 strictly between 2 and pi^2/3 times factor and iLr is its inverse on that open range; beyond either end iLr is nan, as is Lr of a negative Nr. LxS of Sr(Nr) is Lr(Nr). With dt>=0 the Kane fit of LxS is defined for every S, is pi^2/3 at S=0 and approaches 2-2k+k^2 with k=1/(2dt/3+1) like 1/S. PFr with factor fC*fS^2 is Cr*Sr^2. The class constants are consistent: 1e-6*C0*S0^2=PF0, PF0*PFr_max=UWT_to_PFmax, N0*q*1e19=C0 to 1e-15.",
 "every reduced concentration, Seebeck coefficient, factor, delta and dt", "inverse functions and monotonicity over all reals", [B+':RSPB.Sr', B+':RSPB.iSr', B+':RSPB.Ur', B+':RSPB.iUr', B+':RSPB.Lr', B+':RSPB.iLr', B+':RSPB.LxS', B+':RSPB.Cr', B+':RSPB.PFr'])
p('C74','RSPB.valuate: what is reproduced, and the effective mass that is not',
 "For -1<delta and a Seebeck coefficient above S0*ln(1+delta) there is one Nr>0 with Sr(Nr)=S such that the returned L is Lr(Nr), the conductivity Cr(Nr, C0, UWT) of the returned UWT is exactly the measured one and PFmax and sigma0 are multiples of UWT. Ke, Kp, m_eff and Nopt are returned only if conductivity, temperature and concentration are all given (Kp also needs dataK); then Ke=1e-6*L*C*T and Ke+Kp=K. But the returned m_eff does not reproduce the concentration: Nmr(Nr, N0, m_eff, T) is N0=2.509... times the measured one, and Nopt is N0 times the concentration at the optimum of a band that does reproduce it. For a Seebeck coefficient below the threshold (every n-type value, for delta<=1) L, UWT, PFmax, sigma0, Ke, Kp, m_eff are nan and Nopt is a negative number, without any error.",
 "every data point, subset of given data and delta", "all data values", [B+':RSPB.valuate', B+':RSPB.Nmr'])
p('C75','Idealised band and density-of-states lines',
 "bandline with a gap Eg>0 returns the energy e (from E0) that solves e(1+|e|/Eg)=parabolic energy, never farther from E0 than the parabolic line; every line is symmetric about k0, changes sign with the mass, passes through E0 at k0, and the parabolic one is hbar^2 k^2/(2m) in eV for k in 1/Angstrom with a constant right to 1e-16. dosline without gap is 0 on the wrong side of E0 and proportional to |m|^1.5*sqrt(distance) on the right side. dosline with a gap ignores E0 and the sign of the mass altogether; it is nan for -Eg<E<0 and negative for E<-Eg. For E0=0 and positive mass it is, up to one constant, the derivative of k^3 along the matching bandline. For E0=0 and positive mass, with or without gap, it is to a relative 1e-12 the number of states per energy and cell: the derivative of 2*(4/3 pi k^3)/((2 pi)^3/Vcell) along the matching bandline.",
 "every wave vector, energy, mass, offset and gap", "identities and derivatives over all reals", [B+':bandline', B+':dosline'])
p('C76','Total dos and transport function of several bands',
 "MultiBands.dos, trs and hall at energy E add each band's function of the distance from its edge into the band, and of 0 outside the band. Parabolic and Kane bands have dos, trs and hall 0 there, so they contribute only inside; a LinearBand has trs(0)=sigma0, so it contributes its full sigma0 to the total trs at every energy in the gap, where its dos is 0.",
 "every set of bands and energy", "all energies and offsets", [B+':MultiBands.dos', B+':MultiBands.trs', B+':MultiBands.hall', B+':LinearBand.trs'])
