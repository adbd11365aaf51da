{"id": "C01", "title": "AttrDict.retain keeps exactly the requested keys, in order", "statement": "After popped = d.retain(keys) (match_order=False) on any AttrDict d and any iterable of hashable keys, d holds exactly its former entries whose key occurs in keys, in their former relative order and with their former values; popped holds exactly the other former entries; no entry is lost, duplicated or altered.", "quantifier": "every dictionary content, every insertion order, every iterable of keys", "why_tests_cant": "the claim is about every dictionary and every key list, including repeated, missing and empty keys; examples cover a handful", "anchors": ["src/teflow/utils.py:AttrDict.retain"]}
{"id": "C02", "title": "AttrDict.retain(match_order=True) puts the survivors in the order of keys", "statement": "After d.retain(keys, match_order=True) with a sequence keys, d holds exactly the surviving entries of d sorted by the (last) position of their key in keys; the in-place reordering loop never fails with an index error, and the popped entries are the same as without match_order.", "quantifier": "every dictionary content and insertion order, every key sequence with or without repetitions", "why_tests_cant": "the code does not sort: it keeps a greedily chosen prefix and moves the rest to the end; that this equals sorting must hold for every permutation", "anchors": ["src/teflow/utils.py:AttrDict.retain"]}
{"id": "C03", "title": "Failure behaviour of AttrDict.retain", "statement": "retain raises TypeError and leaves d unchanged when keys is not iterable. When match_order=True and keys is iterable but not a sequence (e.g. a set), it also raises TypeError, but only after the non-matching entries have been removed: d is already shrunk to the matching entries and the removed entries are lost to the caller. d is unchanged by that failing call if and only if every key of d is in keys.", "quantifier": "every dictionary, every kind of keys argument, both values of match_order", "why_tests_cant": "an exactness claim about the state left by an exception for all inputs; a test only samples some", "anchors": ["src/teflow/utils.py:AttrDict.retain"]}
{"id": "C04", "title": "ListDict.merge / append / extend / sum are pointwise", "statement": "merge(objs) yields, for each key of the first dict (or of a selection of distinct keys), the list of the values of that key in objs in order, and raises KeyError iff some dict misses such a key; after d.append(o) (d.extend(o)) every list of d has o[key] appended (concatenated); merge of a history equals merge of its beginning followed by append of each later dict; sum gives start plus the values added in list order. If append meets a missing key it raises KeyError after the lists of the preceding keys have already grown: the update is not atomic.", "quantifier": "every list of dictionaries, every selection of distinct keys, every history of appends", "why_tests_cant": "quantifies over unboundedly long histories and all dictionaries", "anchors": ["src/teflow/utils.py:ListDict.append", "src/teflow/utils.py:ListDict.extend", "src/teflow/utils.py:ListDict.merge", "src/teflow/utils.py:ListDict.sum"]}
{"id": "C05", "title": "ExecWrapper argument bookkeeping over any history", "statement": "For every ExecWrapper(obj, args, opts) and every history of update/execute calls: an execute call runs obj with exactly (a) every name in args bound to the value given in this call, else to the latest updated value; (b) every name in opts bound likewise when it has ever been updated or is given in this call; (c) nothing else. Unknown names are ignored; if some required name has neither an updated nor a given value, ValueError is raised and obj is not called; any exception of obj becomes RuntimeError; execute never changes what later calls see.", "quantifier": "every constructor signature, every sequence of update and execute calls with arbitrary keyword sets, every callable", "why_tests_cant": "a claim about all operation histories; tests exercise one or two sequences", "anchors": ["src/teflow/utils.py:ExecWrapper"]}
{"id": "C06", "title": "CfgParser.pmatch section selection", "statement": "pmatch(section) returns the content of the first section, in file order with DEFAULT first, whose name is section or begins with section followed by a dot, and raises NoSectionError iff there is none. The reported type is the section name itself on an exact match; otherwise it is the text after the FIRST dot of the found name, which is the text following 'section.' iff section contains no dot: for every dotted section the reported type is wrong (it still contains the tail of the section name).", "quantifier": "every ordered list of section names and every requested name", "why_tests_cant": "ranges over all strings and section lists; the dotted-name case is exactly what example-based tests miss", "anchors": ["src/teflow/utils.py:CfgParser.pmatch"]}
{"id": "C07", "title": "CfgParser.parse_list tokenises on blanks and commas", "statement": "parse_list(text) returns exactly the maximal runs of characters other than whitespace and commas, in order; no returned item is empty or contains a separator; joining any list of non-empty separator-free items with any non-empty separator strings (and any leading or trailing separators) and parsing gives the list back.", "quantifier": "every text, every list of items, every choice of separators", "why_tests_cant": "a round-trip law over all strings", "anchors": ["src/teflow/utils.py:CfgParser.parse_list"]}
{"id": "C08", "title": "CfgParser.parse_seq expands ranges", "statement": "In parse_seq, a single number contributes itself, a part 'a:b' contributes a, a+1, a+2, ... as long as the value is below b+1e-4 (nothing when b+1e-4 <= a), and a part 'a:s:b' with s nonzero contributes a, a+s, ... of length floor((b-a)/s+1e-4)+1, or nothing when (b-a)/s < 0 (step pointing away from the end), and ZeroDivisionError is raised for s = 0; consequently every value lies between a and b up to 1e-4 (1e-4 steps). The results of successive parts are concatenated in order, a part with four or more numbers raises ValueError, and 'a:b' terminates for all a, b (in exact arithmetic).", "quantifier": "every start, step and end value (exact rationals), every list of parts", "why_tests_cant": "loop counts depend on the data; the bound and termination must hold for all values", "anchors": ["src/teflow/utils.py:CfgParser.parse_seq"]}
{"id": "C09", "title": "parse_seq never terminates on a large float range", "statement": "With IEEE binary64 arithmetic, parse_seq('a:b') never terminates and grows its result without bound for every finite start a >= 2^54 (and for a = 2^53) whenever the loop is entered at all (a < b+1e-4), because start += 1 leaves start unchanged; this holds after every number of iterations. Precisely (e being b+1e-4 rounded, 1e-4 the double nearest to it): for |a| <= 2^53 the loop terminates if and only if not 2^53 < e; for a >= 2^53 and for a <= -2^53-4 it terminates if and only if not a < e or not a1 < e, where a1 is a+1 rounded, and otherwise a1 is appended for ever; for b = infinity ('1:inf') it never terminates, whatever the finite start.", "quantifier": "every iteration count, every such start, and every end b (including infinity)", "why_tests_cant": "non-termination cannot be observed by a finite test run", "anchors": ["src/teflow/utils.py:CfgParser.parse_seq"]}
{"id": "C10", "title": "get_root_logger keeps one handler per destination", "statement": "Over any history of get_root_logger calls, the handlers this function has attached to a package's logger are exactly the most recent one for each destination requested so far for that package, each attached once, in the order of their last request; calls for one package never touch another package's handlers. Since the stdout destination is recorded under the name 'console', requesting filename='console' removes the stdout handler (and vice versa).", "quantifier": "every history of calls with arbitrary package names, stdout flags and file names", "why_tests_cant": "a claim about every call history of shared mutable state", "anchors": ["src/teflow/utils.py:get_root_logger"]}
{"id": "C11", "title": "Section-splitting rule of CfgParser.parse_seq", "statement": "A text in which no colon stands next to a blank or comma is split into parts exactly as parse_list splits it. Blanks around the colon of a range 'a:b' are tolerated one at a time: with at most one blank before and at most one after the colon the text is parsed like 'a:b', whereas two or more blanks before or after the colon make parse_seq raise ValueError, for every pair of literals.", "quantifier": "every pair of numeric literals and every number of blanks around the colon", "why_tests_cant": "quantifies over all blank counts and all literals; regex look-around backtracking makes single-sample reasoning unreliable", "anchors": ["src/teflow/utils.py:CfgParser.parse_seq"]}
{"id": "C12", "title": "split_monotonic partitions the steps of an array into maximal monotone intervals", "statement": "For every array x and eps >= 0, split_monotonic(x, trend, ends, eps) returns index ranges, disjoint (in terms of steps) and increasing, such that with ends='both' each returned interval starts and ends with a step of its own sign larger than eps, contains no step of the opposite sign larger than eps, cannot be extended by later steps, and every step larger than eps in magnitude (of the requested trend) lies in exactly one interval; ends = left/right/none drop exactly the last/first/both points of the 'both' interval. Another first letter of ends or trend raises ValueError, an empty one IndexError. With trend='#pattern' every match of the pattern among the steps written as letters A, D, S becomes one interval with the sign of its first step, and a pattern with an empty match raises IndexError.", "quantifier": "every array length and content, eps >= 0, every trend in {both, ascending, descending} and ends value", "why_tests_cant": "correctness depends on the leftmost-greedy regex matching over unboundedly long sign strings", "anchors": ["src/teflow/mathext.py:split_monotonic"]}
{"id": "C13", "title": "mixing is the weighted mean", "statement": "mixing(datas, weight) of float arrays of equal shape returns sum_i w_i*d_i/sum_i w_i elementwise (times scale*sum w when scale is given); with non-negative weights of positive sum each element lies between the smallest and largest corresponding element; equal inputs are reproduced; for at least one data set ValueError iff the numbers of weights and datas differ or shapes differ; with no data set at all IndexError (ValueError if weights are given).", "quantifier": "every number of datas, every length, all real weights and values", "why_tests_cant": "universally quantified numeric law over arrays of all sizes", "anchors": ["src/teflow/mathext.py:mixing"]}
{"id": "C14", "title": "fermidirac is a strictly decreasing bijection with its inverse", "statement": "fermidirac(x) = 1/(1+e^x) lies strictly between 0 and 1, is strictly decreasing, satisfies f(-x) = 1-f(x); fermidirac(y, inverse=True) = ln(1/y-1) for 0<y<1, and the two are mutually inverse; the inverse form clips its argument to [0,1] first.", "quantifier": "every real argument", "why_tests_cant": "real-analytic identity for all arguments", "anchors": ["src/teflow/mathext.py:fermidirac"]}
{"id": "C15", "title": "smoothstep and its inverse, shifted and unshifted", "statement": "smoothstep(x, shift=False) is 0 below 0, 1 above 1 and 3x^2-2x^3 between, non-decreasing with values in [0,1]; smoothstep(x, shift=True) equals smoothstep((1-x)/2, shift=False) for every x; for every y in [0,1] smoothstep(smoothstep(y, inverse=True, shift=s), shift=s) = y, and conversely the inverse recovers every x in the active interval.", "quantifier": "every real x, every y in [0,1], both shift values", "why_tests_cant": "trigonometric inverse of a cubic: identity for all reals", "anchors": ["src/teflow/mathext.py:smoothstep"]}
{"id": "C16", "title": "Kernels of the GPR interpolation", "statement": "The built-in kernels satisfy K(u,u)=1, K(u,v)=K(v,u), 0<K(u,v)<=1 for every u, v and non-zero scale; 'dfx' equals 4e^t/(1+e^t)^2 with t=(u-v)/s as documented; with gradient=True they return exactly the derivative of K with respect to the first argument.", "quantifier": "every real u, v and scale != 0", "why_tests_cant": "derivative identity over the reals", "anchors": ["src/teflow/mathext.py:_kernel_rbf", "src/teflow/mathext.py:_kernel_dfx"]}
{"id": "C17", "title": "interpx: interpolation and linear extrapolation", "statement": "For strictly increasing x of length >= 2 and an array of points xp (single numbers: C122), interpx(x,y,xp) passes through every node, lies on the chord of the two neighbouring nodes between nodes, and on the straight line through the two first (last) nodes left (right) of the range; data on a straight line is reproduced exactly for every xp; with left/right given, that value is returned outside the range instead, and inside the range nothing changes; inside the range the value is between the two neighbouring y values.", "quantifier": "every number of nodes, all node values, every query point", "why_tests_cant": "all data sets, all query points incl. boundary points", "anchors": ["src/teflow/mathext.py:interpx", "src/teflow/mathext.py:_interpx"]}
{"id": "C18", "title": "vinterp does not depend on the order of the data points", "statement": "With reorder=True, permuting the data points (x_i, y_i) with distinct x does not change the result of vinterp for any method; reorder=False raises ValueError iff some x decreases; a length mismatch or non-finite value raises ValueError before anything else.", "quantifier": "every data set with distinct x, every permutation, every interpolation method", "why_tests_cant": "all permutations of all data sizes", "anchors": ["src/teflow/mathext.py:vinterp"]}
{"id": "C19", "title": "Error metrics", "statement": "For equal-length non-empty y, y2: MSE >= 0 with equality iff y = y2, symmetric; RMSE = sqrt(MSE); MAE <= RMSE and MAE, RMSE satisfy the triangle inequality; SMAPE is symmetric and within [0,2] (entries not both zero); MAPE is the mean of |y2/y-1|; Metric(kind) accepts the kind names case-insensitively and rejects everything else with ValueError.", "quantifier": "all lists of reals of equal length, all kind strings", "why_tests_cant": "inequalities over vectors of every length", "anchors": ["src/teflow/mathext.py:Metric"]}
{"id": "C20", "title": "GPR interpolation reproduces the data; regularisation of vinterp/mapping and array scales differ from the documentation", "statement": "With regular=0, a scalar scale and any non-singular kernel matrix for which the linear solve is exact, interp_gpr and vinterp(method='gpr', kernel=...) return y_j at xp = x_j for every data set, and mapping returns z_j at (x_j, y_j). With scalar regularisation r, interp_gpr solves with K + r*I (as documented), whereas vinterp(method='gpr', regular=r) and mapping(..., regular=r) add r to EVERY entry of the kernel matrix: the matrices solved are equal iff r = 0 or there is at most one point, and the predicted values can differ. vinterp(method='gpr') without an explicit kernel raises TypeError. A one-dimensional scale matching the length of x (as documented; at least two points) never gives a result unless the number of query points equals the number of data points.", "quantifier": "every number of points, every kernel matrix, every r", "why_tests_cant": "linear-algebra identity for all sizes", "anchors": ["src/teflow/mathext.py:interp_gpr", "src/teflow/mathext.py:_interp_gpr", "src/teflow/mathext.py:mapping", "src/teflow/mathext.py:_interp_vect"]}
{"id": "C21", "title": "cal_Yita profile and p/n symmetry", "statement": "cal_Yita(u, data, allTemp=True) returns one efficiency per temperature point beginning with 0, the value without allTemp is its last element, the value at point i depends only on points 0..i and is 100*(1-Phi_0/Phi_i) with Phi_i = S_i*T_i + 1/u_i, where u_0 = u and 1/u_i = sqrt(1-u^2*(rho_i*K_i+rho_{i-1}*K_{i-1})*(T_i-T_{i-1}))/u - (T_i+T_{i-1})/2*(S_i-S_{i-1}) with u = u_{i-1} (SI units; where these numbers exist), and replacing (u, S) by (-u, -S) changes nothing.", "quantifier": "every data length, all real properties and u", "why_tests_cant": "law over data arrays of all lengths", "anchors": ["src/teflow/ztdev.py:cal_Yita"]}
{"id": "C22", "title": "cal_Yita never exceeds the Carnot limit", "statement": "For increasing positive temperatures and positive conductivities, if the relative current density and the Seebeck coefficient stay positive (sqrt arguments non-negative, u_i > 0), every efficiency returned by cal_Yita at point i is at most 100*(1-T_0/T_i) percent.", "quantifier": "every number of temperature points, all positive property profiles, every admissible u", "why_tests_cant": "second-law bound for all profiles: induction over the recursion, no finite sample suffices", "anchors": ["src/teflow/ztdev.py:cal_Yita"]}
{"id": "C23", "title": "cal_ZTdev inverts the textbook efficiency formula", "statement": "For 0<Tc<Th and ZT >= 0, if Yita = 100*(Th-Tc)/Th*(sqrt(1+ZT)-1)/(sqrt(1+ZT)+Tc/Th) then cal_ZTdev(Yita,Tc,Th) = ZT provided |Th*(1-Yita/100)-Tc| > 1e-3; when that quantity is at most 1e-3 in magnitude (efficiency within 1e-3/Th of the Carnot limit) cal_ZTdev returns 0 regardless of Yita; this quantity equals (Th-Tc)*(Th+Tc)/(Th*sqrt(1+ZT)+Tc), so the guard applies only to tiny temperature differences or huge ZT; below the Carnot limit (outside this band) the result is non-negative and strictly increasing in Yita for Yita >= 0.", "quantifier": "all temperatures, all ZT values", "why_tests_cant": "algebraic inverse over the reals, including the guard region", "anchors": ["src/teflow/ztdev.py:cal_ZTdev"]}
{"id": "C24", "title": "optim_u search interval and result passing", "statement": "optim_u searches between 0.01 and 1e-4*S0*C0/K0 when S0>0 and between 1e-4*S0*C0/K0 and -0.01 otherwise; with any bounded minimiser that returns a point of the interval whose value is not above that of any probed point, the returned efficiency is at least that of every probed u; for C0, K0 > 0 the interval is inverted (lower bound above upper bound) iff |S0|*C0/K0 < 100, and whenever it is inverted optim_u and optim_Yita raise ValueError (the bounded minimiser rejects it); otherwise optim_u returns None iff the minimiser reports failure, in which case optim_Yita raises TypeError; on success optim_Yita is cal_Yita (all temperatures) at the returned u.", "quantifier": "all data, all minimisers satisfying the contract", "why_tests_cant": "ranges over all minimiser behaviours and data", "anchors": ["src/teflow/ztdev.py:optim_u", "src/teflow/ztdev.py:optim_Yita"]}
{"id": "C25", "title": "Consistency of the generator outputs", "statement": "For every built GenLeg/GenPair with non-zero integrals and every reduced current r: I = r*Isc, Vout = (1-r)*Voc, Pout equals 1e-3*Vout*I (mV*A to W), Yita = 100*Pout/Qhot, Qhot is conduction <K>*A/L plus I*<(2T-Tc)S>/(Th-Tc) minus the part <(T-Tc)rho>/(<rho>*(Th-Tc)) of the Joule heat I^2*R, Vout = Voc - I*R, and scaling leg length by c (area by c) scales I, Pout and Qhot by 1/c (by c) leaving Vout and Yita unchanged.", "quantifier": "all property integrals, geometries and reduced currents", "why_tests_cant": "algebraic identity over the reals", "anchors": ["src/teflow/engout.py:GenCore._simulate", "src/teflow/engout.py:GenCore._get_prfs"]}
{"id": "C26", "title": "I_r=\"PowerMax\" maximises the output power", "statement": "For every built device (Qx>0) the output power at I_r='PowerMax' is at least that at every other reduced current, with equality only at r=1/2.", "quantifier": "all devices, all reduced currents", "why_tests_cant": "optimality over a continuum", "anchors": ["src/teflow/engout.py:GenCore._simulate"]}
{"id": "C27", "title": "I_r=\"YitaMax\" maximises the efficiency", "statement": "For every built device with Zeng>0, 1+ZTp>=0 and the physical regime where the absorbed heat is positive on [0,1], the efficiency at I_r='YitaMax' is at least that at every reduced current r in [0,1].", "quantifier": "all devices in the regime, all reduced currents", "why_tests_cant": "optimality over a continuum", "anchors": ["src/teflow/engout.py:GenCore._simulate", "src/teflow/engout.py:GenCore._get_prfs"]}
{"id": "C28", "title": "Constant properties reproduce the textbook formulas", "statement": "For a leg with constant rho, S, K between Tc<Th sampled on any temperature grid containing both, build/simulate('YitaMax') give ZTeng = S^2/(rho*K)*(Th-Tc) (SI units restored), the maximal efficiency (Th-Tc)/Th*(M-1)/(M+Tc/Th) with M = sqrt(1+Z*(Th+Tc)/2), which lies below the Carnot efficiency, and feeding it into cal_ZTdev recovers Z*(Th+Tc)/2 (where the guard of cal_ZTdev does not apply).", "quantifier": "all constants, every grid, all temperature pairs", "why_tests_cant": "closed-form identity over all reals and grids", "anchors": ["src/teflow/engout.py:GenCore._get_itgs", "src/teflow/engout.py:GenCore._get_prfs", "src/teflow/ztdev.py:cal_ZTdev"]}
{"id": "C29", "title": "ratioArea=\"ZTengMax\" is not the maximiser", "statement": "ZTeng of a p-n pair as a function of the area ratio An/Ap is maximal exactly at rL*sqrt(rho_n*K_p/(rho_p*K_n)) (temperature integrals). GenPair.build(ratioArea='ZTengMax') uses rL*sqrt(rho_p*K_n/(rho_n*K_p)), the reciprocal ratio, which attains the maximum iff rho_p*K_n = rho_n*K_p; otherwise another ratio gives strictly larger ZTeng.", "quantifier": "all positive integrals, all length ratios and area ratios", "why_tests_cant": "optimality over a continuum; the formula looks plausible in symmetric tests", "anchors": ["src/teflow/engout.py:GenPair._get_itgs"]}
{"id": "C30", "title": "ratioArea=\"PFengMax\" is not the maximiser", "statement": "PFeng of a p-n pair as a function of An/Ap is maximal exactly at sqrt(rL*rho_n/rho_p). GenPair.build(ratioArea='PFengMax') uses sqrt(rL*rho_p/rho_n), which attains the maximum iff rho_p = rho_n.", "quantifier": "all positive integrals and ratios", "why_tests_cant": "optimality over a continuum", "anchors": ["src/teflow/engout.py:GenPair._get_itgs"]}
{"id": "C31", "title": "Polynomial mode uses rho in place of S in <T*S>", "statement": "With isPoly=True the integrals of rho, S, K and T*rho are the exact integrals of the given polynomials between Tc and Th, the end-point Seebeck coefficients are the polynomial's values, but the integral reported as <T*S> is that of T*rho; it equals the exact <T*S> for all Tc, Th iff the polynomials S and rho agree.", "quantifier": "all polynomials and temperature pairs", "why_tests_cant": "identity over all polynomials", "anchors": ["src/teflow/engout.py:GenCore._get_itgs"]}
{"id": "C32", "title": "Trapezoid integrals of tabulated data", "statement": "For tabulated data on a strictly increasing grid, each of the integrals of rho, S, K, T*rho, T*S equals the sum of trapezoids between grid points Tc and Th, and the end-point Seebeck coefficients are the tabulated ones there; integrals over adjacent temperature spans add up; piecewise constant-extended interpolation makes integrals of positive properties between Tc<Th within the grid strictly positive, and Tc or Th outside the grid are silently treated as the nearest grid end.", "quantifier": "all grids, all tabulated values, all temperature spans", "why_tests_cant": "additivity over every grid", "anchors": ["src/teflow/engout.py:GenCore._get_itgs"]}
{"id": "C33", "title": "simulate before build, and build options of GenPair", "statement": "For every sequence of build/simulate calls: simulate raises RuntimeError iff build has never succeeded on the object, otherwise it uses the profile of the latest successful build; an unknown I_r string raises ValueError; GenPair.build without arguments is build(ratioLength=1, ratioArea='ZTengMax'); GenPair.build always computes the weight factors, whatever calWeights is (the option dictionary is passed in its place).", "quantifier": "every history of build and simulate calls", "why_tests_cant": "all call histories", "anchors": ["src/teflow/engout.py:GenCore._simulate", "src/teflow/engout.py:GenCore._build", "src/teflow/engout.py:GenPair.build"]}
{"id": "C34", "title": "Voigt sequence and matrix forms are inverse", "statement": "tens2seq(seq2tens(c)) = c for every six components and every use_upper; seq2tens(tens2seq(m)) = m iff m is symmetric, for every use_upper; with use_upper=None it is the symmetric part of m.", "quantifier": "all real matrices, all six-tuples", "why_tests_cant": "universal algebraic identity", "anchors": ["src/teflow/anisotro.py:tens2seq", "src/teflow/anisotro.py:seq2tens"]}
{"id": "C35", "title": "rotate3d computes R C R^T", "statement": "For every 3x3 matrix R (rotation or not) and symmetric tensor C, rotate3d(R, C) is the Voigt form of R C R^T; hence rotate3d(R2, rotate3d(R1, C)) = rotate3d(R2 R1, C), the identity matrix changes nothing, and a rotation followed by its transpose restores the tensor.", "quantifier": "all matrices and tensors", "why_tests_cant": "polynomial identity in 15 variables", "anchors": ["src/teflow/anisotro.py:rotate3d"]}
{"id": "C36", "title": "Rotation invariants", "statement": "For orthogonal R the trace, the second invariant and the determinant of the tensor are unchanged by rotate3d; positive definiteness is preserved.", "quantifier": "all orthogonal matrices and symmetric tensors", "why_tests_cant": "identity over an algebraic variety", "anchors": ["src/teflow/anisotro.py:rotate3d"]}
{"id": "C37", "title": "Axis rotations are proper rotations", "statement": "For every angle and every non-zero axis vector the matrix rotate3d uses internally is orthogonal with determinant 1 and fixes the axis; 'x','y','z' (any capitalisation, first letter decides) agree with the corresponding unit vectors; scaling the axis vector by a positive factor changes nothing and by a negative factor reverses the rotation; the rotation of vectors is Rodrigues' formula; comb_rotations(a,b) equals rotating by a about y and then by b about z; any other first letter raises ValueError and an empty string IndexError.", "quantifier": "all angles, axes, tensors and axis strings", "why_tests_cant": "trigonometric identities for all angles", "anchors": ["src/teflow/anisotro.py:rotate3d", "src/teflow/anisotro.py:comb_rotations"]}
{"id": "C38", "title": "project3d is the directional value of the tensor", "statement": "project3d(theta, phi, C) = n^T C n for n = (sin phi cos theta, sin phi sin theta, cos phi), equals the 11 component of the tensor rotated so that n becomes the x axis, and for positive semidefinite C is between 0 and the trace.", "quantifier": "all angles and tensors", "why_tests_cant": "identity for all angles", "anchors": ["src/teflow/anisotro.py:project3d"]}
{"id": "C39", "title": "anilay effective-medium bounds", "statement": "For positive conductivities, anilay gives effective C and K between the smallest and largest layer values in both directions, with vertical (series) <= parallel values, equality iff all layer values are equal; the effective Seebeck coefficients lie between the smallest and largest layer values; reordering the layers or rescaling all widths by a common factor changes nothing. Explicit widths given as a list of >= 1 numbers act as weights (two layers of the same material count as one of the summed width, a layer of width 0 not at all); widths=0 and widths=[] behave like widths=1, and a numpy array of two or more widths raises ValueError. Two arguments of different lengths, neither of them 1, raise ValueError.", "quantifier": "any number of layers, all positive values and widths", "why_tests_cant": "means inequality for every number of layers", "anchors": ["src/teflow/anisotro.py:anilay"]}
{"id": "C40", "title": "ztdev.valuate tabulates cal_ZTdev", "statement": "When the optimisation succeeds, valuate returns one row (T_0, T_i, ZTdev_i) per temperature point; with allTemp=True the i-th row holds cal_ZTdev of the i-th efficiency between T_0 and T_i and the first row is (T_0, T_0, 0) with efficiency 0; with allTemp=False the single last efficiency is combined with EVERY hot-side temperature T_i, so only the last row describes the device (nan in every row if that efficiency is nan); if the search interval is inverted or the minimiser fails, valuate raises.", "quantifier": "every data length, every data set, every minimiser behaviour", "why_tests_cant": "law over arrays of all lengths and all minimisers", "anchors": ["src/teflow/ztdev.py:valuate", "src/teflow/ztdev.py:cal_ZTdev", "src/teflow/ztdev.py:optim_Yita"]}
{"id": "C41", "title": "simulate(\"scan\") is unusable with float temperatures", "statement": "simulate(I_r='scan' or 'sweep') on a built device raises TypeError whenever the temperatures are floats (deltaT is an array used as list repeat count), and with a single pair of integer temperatures it raises ValueError unless Th-Tc equals numPoints+1 or 0; in those cases it returns one output per current of linspace(0,1,numPoints), i.e. equally spaced from 0 to 1.", "quantifier": "all devices, all numPoints, all integer temperature differences", "why_tests_cant": "the accepted combinations are isolated points among all inputs", "anchors": ["src/teflow/engout.py:GenCore._simulate"]}
{"id": "C42", "title": "A layered composite never beats its best layer", "statement": "For layers with positive conductivities and widths, the figure of merit C*S^2/K formed from the effective vertical values, and the one formed from the effective parallel values returned by anilay, are both at most the largest figure of merit among the layers (Bergman-Levy bound).", "quantifier": "any number of layers, all positive values and widths, all Seebeck coefficients", "why_tests_cant": "Cauchy-Schwarz type inequality for every number of layers", "anchors": ["src/teflow/anisotro.py:anilay"]}
{"id": "C43", "title": "Modification factors and weight factors of a device", "statement": "For grid-point temperatures Tc<Th the modification factors are the trapezoid averages <(T-Tc)rho>, <(2T-Tc)S>, their ratios to <rho> and <S>, and the chain m0, m1=m0-RhoT, m2=m1-RhoT. The weight factors stored with calWeights are W_J = <T rho>/<rho>/(Th-Tc), W_T as coded, alpha_j = m_j/S(Th); consequently for constant properties W_J is (Tc+Th)/2/(Th-Tc) > 1/2 instead of the textbook 1/2, the denominator of W_T is exactly 0, and alpha_j = Th/S, Tmean/S, Tc/S carry the unit of 1/S although documented as dimensionless.", "quantifier": "all tables, all temperature spans, all device geometries", "why_tests_cant": "identities over all tables", "anchors": ["src/teflow/engout.py:GenCore._get_mdfs", "src/teflow/engout.py:GenCore._get_wgts"]}
{"id": "C44", "title": "A p-n pair is the sum of its two legs", "statement": "With equal end temperatures on both legs, a GenPair of total area A and length L with ratios rL=Ln/Lp, rA=An/Ap behaves exactly like a p leg (L, A/(1+rA)) carrying the current I and an n leg (L*rL, A*rA/(1+rA)) carrying -I: pair voltage = difference of the leg voltages, pair power and hot-side heat = sums of those of the legs, and the efficiency is the ratio of these sums.", "quantifier": "all property integrals, geometries, ratios and currents", "why_tests_cant": "algebraic identity over all reals; unit tests check single devices", "anchors": ["src/teflow/engout.py:GenPair._get_itgs", "src/teflow/engout.py:GenCore._simulate"]}
{"id": "C45", "title": "Identifiers of a column group", "statement": "TEdataset.parse_group of a string returns, in order and with multiplicity, exactly the maximal identifiers in it (a capital letter, plus the next character if that is a lower-case letter, digit or underscore) and drops all other characters; every string decomposes into such identifiers and gaps, and for a list of identifiers parse_group of their concatenation is that list.", "quantifier": "every string, every list of identifiers", "why_tests_cant": "law over all strings, including adjacent and partial identifiers", "anchors": ["src/teflow/loader.py:TEdatasetBase.parse_group", "src/teflow/loader.py:TEdatasetBase.PROP_PATTERN"]}
{"id": "C46", "title": "Electrical quantities of a data set are mutually consistent", "statement": "For every data set built by TEdataset or TEdataset2: a stored column is returned unchanged by [] and get, and [] of any other key raises KeyError. get of a missing key returns the given default, or raises ValueError without one, unless it is C, R, N or U and derivable from stored columns that share the temperature column (C from R, or from N and U; R from C, or from N and U; N from U and C or R; U from N and C or R). Unless both C and R are stored, the returned C and R satisfy C*R = 10^4 elementwise with the same temperatures; and unless the stored data are over-determined, the returned C, N, U satisfy C = 1.602176634*N*U elementwise with the same temperatures, for columns of equal length; of unequal columns one of a single element stands for a constant, and any other lengths raise ValueError.", "quantifier": "every group, every data, every combination of stored columns", "why_tests_cant": "all 16 combinations of stored columns, all values and temperature assignments", "anchors": ["src/teflow/loader.py:TEdatasetBase._getC", "src/teflow/loader.py:TEdatasetBase._getR", "src/teflow/loader.py:TEdatasetBase._getN", "src/teflow/loader.py:TEdatasetBase._getU", "src/teflow/loader.py:TEdataset.get", "src/teflow/loader.py:TEdataset2.get"]}
{"id": "C47", "title": "Each property belongs to the nearest preceding temperature column", "statement": "TEdataset2(data, group) succeeds exactly when no column is named or the first identifier is T, and raises ValueError otherwise. Then for each name other than T and X among the identifiers that have a column, [name] returns the last column of that name together with the T column closest before it; T, X and unnamed keys raise KeyError. For TEdataset, [name] returns the last column of that name (T included), X and unnamed keys raise KeyError.", "quantifier": "every group and every number of columns", "why_tests_cant": "positions of T, X and duplicates are arbitrary", "anchors": ["src/teflow/loader.py:TEdataset2._initialize_data", "src/teflow/loader.py:TEdataset._initialize_data"]}
{"id": "C48", "title": "Which lines of a data file become rows, and how they split", "statement": "parse_datafile skips blank lines and lines starting with #; a line 'blanks text blanks [# comment]' contributes the fields of its text; an indented comment line (blanks then #) is NOT skipped but contributes a row made from a single blank. Every line is of exactly one of these kinds. With the default delimiter the text splits at every run of white space, with [\\t;,] at every single separator, empty fields included. The result has as many columns as the longest row has fields, each with one entry per row, missing fields being nan.", "quantifier": "every file content", "why_tests_cant": "regular-expression backtracking over all lines", "anchors": ["src/teflow/loader.py:TEdatasetBase.parse_datafile"]}
{"id": "C49", "title": "TEdataset2.from_file keeps rows aligned, TEdataset.from_file does not", "statement": "TEdataset2.from_file pairs a property with its temperature on exactly the rows, in file order, in which every column of the temperature block (from that T to the next T, or to the end of the group, or to the end of the file when there is only one T) is finite; it raises ValueError when the group has no T and refuses files with fewer columns than the position of some T. TEdataset.from_file drops the non-finite entries of each column independently, so after a missing entry the columns no longer refer to the same rows.", "quantifier": "every file, every group", "why_tests_cant": "all tables with arbitrary patterns of missing cells", "anchors": ["src/teflow/loader.py:TEdataset.from_file", "src/teflow/loader.py:TEdataset2.from_file"]}
{"id": "C50", "title": "What Compound.from_string reads from any formula", "statement": "Every (ASCII) text is a prefix without capital letters followed by items, each a name (a capital letter and lower-case letters), optional filler characters (blank _ - ( \\), an optional unsigned decimal number and text without capitals. Compound.from_string returns the names in order of first occurrence, each with the value of its LAST number (1 when the number is missing); a lone '.' as number is the only thing refused (ValueError). The element symbols known are the 118 of the periodic table and the dummy XX. With raise_unknown it returns the same when the first two letters of every name are an element symbol (only those two are looked at) and raises ValueError otherwise; with skip_unknown it returns what the formula without the unknown items gives.", "quantifier": "every ASCII formula", "why_tests_cant": "law over all strings including backtracking, overwriting and partial names", "anchors": ["src/teflow/loader.py:Compound.from_string"]}
{"id": "C51", "title": "Compound text round trip", "statement": "For every compound with distinct well-formed names, every style (join, split, origin) and both settings of omit_one, Compound.from_string(c.to_string(...)) gives back the same names, amounts and order, provided the format writes each amount as its exact unsigned decimal. In a compound of one atom a number written with an exponent or a minus sign is silently read back as the mantissa, respectively the absolute value.", "quantifier": "every compound, style, omit_one and number format", "why_tests_cant": "round trip over all compounds and formats", "anchors": ["src/teflow/loader.py:Compound.to_string", "src/teflow/loader.py:Compound.from_string"]}
{"id": "C52", "title": "Number of atoms and average weight", "statement": "natom is the integer within 1e-8 of the sum of the amounts if there is one, otherwise the sum itself, so it is always within 1e-8 of the sum. weight_ave times natom is the sum of amount times atomic weight; it exists exactly when the sum of the amounts is at least 1e-8 in size, raises ZeroDivisionError otherwise, lies between the smallest and largest atomic weight for non-negative amounts with an exact sum, raises KeyError if any name is not an element symbol and TypeError for the dummy element XX.", "quantifier": "every compound and every table of weights", "why_tests_cant": "all amounts", "anchors": ["src/teflow/loader.py:Compound.natom", "src/teflow/loader.py:Compound.weight_ave", "src/teflow/loader.py:Compound.weights"]}
{"id": "C53", "title": "Compound.replace renames exactly one atom", "statement": "If old occurs and new does not, replace(old, new, match_order=True) renames old in place and leaves every other item, amount and the order unchanged; without match_order the renamed item moves to the end and the others keep their order. If old is missing or new is present KeyError is raised.", "quantifier": "every compound, every pair of names", "why_tests_cant": "all positions in all compounds", "anchors": ["src/teflow/loader.py:Compound.replace"]}
{"id": "C54", "title": "Alloy.all_sites", "statement": "For an alloy of Compound sites with non-zero atom numbers, all_sites yields each site once, in order, with its number of atoms and its composition, divided by the number of atoms when regular is true (those fractions then sum to 1), and leaves the alloy unchanged. A site given as a plain dict is not converted: if it comes first UnboundLocalError is raised, otherwise it is silently overwritten by the composition yielded for the preceding site and that is yielded again. Any other site is refused.", "quantifier": "every alloy, both settings of regular", "why_tests_cant": "all site lists", "anchors": ["src/teflow/loader.py:Alloy.all_sites"]}
{"id": "C55", "title": "Alloy.from_compounds", "statement": "For compositions with non-zero atom numbers and distinct names, from_compounds makes one site per composition in order; with natoms each composition is scaled to that number of atoms keeping names and ratios, without natoms it is kept as is. Without names the sites are called A, B, C, ..., and more than 26 compositions raise ValueError. If all earlier compositions have atoms, one that is not a mapping raises TypeError, and one without atoms when natoms is given ZeroDivisionError.", "quantifier": "every list of compositions, names and atom numbers", "why_tests_cant": "all lists", "anchors": ["src/teflow/loader.py:Alloy.from_compounds"]}
{"id": "C56", "title": "Alloy.from_string reads each part of an alloy formula as one site", "statement": "For a formula made of at most 26 parts, each an element or a parenthesised group followed by an optional number, with pairwise different groups and different elements, whose part compositions are readable, determined and not empty, from_string returns one site per part, named A, B, C, ... in order, holding the part's composition times its number. If a part consists of two or more elements all with amount 1, ValueError is raised. A formula in the OriginLab notation written by to_string(style='origin') is never read: if the text starts with name\\-(number) and no other parenthesis follows (the rest being empty or starting with a capital), from_string does not return, despite the substitution meant to support it.", "quantifier": "every formula of the stated form, both unknown-element flags", "why_tests_cant": "parenthesis extraction and textual substitution over all formulas", "anchors": ["src/teflow/loader.py:Alloy.from_string", "src/teflow/loader.py:Alloy.from_compounds"]}
{"id": "C57", "title": "Alloy text round trip", "statement": "For an alloy of at most 26 Compound sites with pairwise different element fractions, Alloy.from_string(a.to_string()) gives the same compositions with the same amounts in the same order (the sites being renamed A, B, C, ...), provided the format writes totals and fractions as exact unsigned decimals, 1 as '1', and the total is not within 1e-8 of a different integer. With omit_one=False (styles join and split) an alloy of one single-element site is written as name, 1, amount without separator (Bi2 becomes Bi12). Of two sites with equal fractions only one part is written, with the amount of the second, so atoms are lost.", "quantifier": "every alloy of the stated form and every number format", "why_tests_cant": "round trip over all alloys", "anchors": ["src/teflow/loader.py:Alloy.to_string", "src/teflow/loader.py:Alloy.from_string", "src/teflow/loader.py:Alloy.all_sites"]}
{"id": "C58", "title": "The Fermi integrals of every band model are positive sums over positive energies", "statement": "For every Fermi level EF, temperature T>0 and order ndiv (2^ndiv intervals, default 6) there is one list of 2^ndiv+1 positive energies with non-negative weights (not all zero) such that, for every function f(E,T) and every power k, the integral returned by the quadrature is exactly the weighted sum of ((E-EF)/(kB*T))^k*f(E,T) over that list. Hence the integral is linear in f, depends on f only at positive energies, is non-negative for non-negative f when k is 0 or 2, positive for positive f when k is 0, and its values for k=0,1,2 satisfy K1^2 <= K0*K2. The Romberg rule on which it rests gives every sample a weight between 1/5 and 3/2 at every order, so no sample is ever subtracted.", "quantifier": "every integrand, power, order, Fermi level and positive temperature", "why_tests_cant": "the sign of every Romberg weight and the place of every node for all EF, T", "anchors": ["src/teflow/bandlib.py:romb_dfx", "src/teflow/bandlib.py:BaseBand._K_n"]}
{"id": "C59", "title": "The quadrature substitution is the exact change of variables of the Fermi window", "statement": "With x(t)=3*ln(1/t-1) the weight used at t is exactly the derivative of the Fermi-Dirac function f(x(t)) with respect to t, so that for every continuous g and power k the integral of g(x(t))*x(t)^k*weight(t) over any [a,b] inside (0,1) equals the integral of g(x)*x^k*(-df/dx) between x(b) and x(a). The sampled range 0<t<width corresponds, decreasingly, to exactly the energies above the band edge E=0.", "quantifier": "every continuous integrand, power and interval", "why_tests_cant": "an identity of integrals over all functions", "anchors": ["src/teflow/bandlib.py:romb_dfx"]}
{"id": "C60", "title": "Compiling one band changes nothing but the speed", "statement": "For every band (with _N, _K_n, _CCRH given by its spectral functions), Fermi level and temperature, after compile(EF, T, max_level) every property called without arguments, or read as band[name], has exactly the value that the uncompiled property has at (EF, T), provided max_level covers the integrals it needs (the default 2 covers all; otherwise IndexError). Of an uncompiled band every property called without EF or without T raises TypeError (only CCRH of a band without Hall function returns None). band['EF'] and band['T'] give the compiled pair, other keys raise KeyError, and any key of an uncompiled band raises RuntimeError. clear() restores the uncompiled band and compiling again forgets the former state. If the sign of a compiled band is changed afterwards (as MultiBands.append does) the Hall integral keeps the old sign.", "quantifier": "every band, property, Fermi level, temperature, max_level and prior state", "why_tests_cant": "equality over all states of the cache", "anchors": ["src/teflow/bandlib.py:BaseBand.compile", "src/teflow/bandlib.py:BaseBand.fetch", "src/teflow/bandlib.py:BaseBand.__getitem__", "src/teflow/bandlib.py:BaseBand.clear"]}
{"id": "C61", "title": "A compiled band ignores EF and T; what solve_EF guarantees", "statement": "Once an object (single or multiple bands) is compiled, every property returns the same for whatever EF and T it is called with; so solve_EF on a compiled object hands the root finder a constant residual and its answer does not depend on how the property varies with EF. On any object, if the root finder reports convergence, the Fermi level returned makes property(EF,T)-value as small as the root finder guarantees; if it does not converge nan is returned; exceptions pass through.", "quantifier": "every object, property, target and root finder", "why_tests_cant": "all cache states, all root finders meeting the contract", "anchors": ["src/teflow/bandlib.py:BaseBand.fetch", "src/teflow/bandlib.py:BaseBand.solve_EF"]}
{"id": "C62", "title": "Identities between the reported band properties", "statement": "For one band or several, compiled or not, whenever the values exist and C is not 0: PF = 1e-6*S^2*C and CS = C*S exactly; Ke = CL*T exactly and 1e-6*L*C equals CL to a relative 1e-15 (L uses a rounded constant); sign*q*(N*1e19)*U = C; UH = RH*C, CCRH = RH*C^2, sign*q*(NH*1e19)*RH = 1 and sign*q*(NH*1e19)*UH = C.", "quantifier": "every object, Fermi level and temperature", "why_tests_cant": "algebra over all values of the integrals", "anchors": ["src/teflow/bandlib.py:BaseBand.PF", "src/teflow/bandlib.py:BaseBand.S", "src/teflow/bandlib.py:BaseBand.L", "src/teflow/bandlib.py:BaseBand.Ke", "src/teflow/bandlib.py:BaseBand.CL", "src/teflow/bandlib.py:BaseBand.U", "src/teflow/bandlib.py:BaseBand.RH", "src/teflow/bandlib.py:BaseBand.UH", "src/teflow/bandlib.py:BaseBand.NH"]}
{"id": "C63", "title": "Conductivity, Lorenz number and electronic thermal conductivity are never negative", "statement": "For every band whose transport function is positive above its edge, and every non-empty MultiBands of such bands (any mix of conduction and valence bands and offsets), at every Fermi level and temperature T>0: C > 0, CL >= 0, L >= 0 and Ke >= 0, in spite of the differences they are computed from.", "quantifier": "every transport function, set of bands, Fermi level and temperature", "why_tests_cant": "needs the Cauchy-Schwarz inequality for the quadrature over all inputs", "anchors": ["src/teflow/bandlib.py:BaseBand.L", "src/teflow/bandlib.py:BaseBand.Ke", "src/teflow/bandlib.py:MultiBands._K_n", "src/teflow/bandlib.py:romb_dfx"]}
{"id": "C64", "title": "MultiBands adds up its bands, compiled or not", "statement": "N, C, C*S and CCRH of an uncompiled MultiBands are the sums of the same property of its bands, each at the Fermi level measured from its own edge (EF-delta for conduction, delta-EF for valence bands). If the band objects are distinct and all have a Hall function, then after compile(EF,T) every property without arguments equals the property at (EF,T) after clear(), whatever was compiled before. If one object is entered twice with different deltas, the compiled N is twice the value at the last delta instead of the sum. If the bands were compiled elsewhere, an uncompiled MultiBands returns the same value for every EF (and T, except Ke). With a band without Hall integral (LinearBand) compile raises TypeError after compiling the sub-bands. A property of an uncompiled MultiBands with at least one band called without EF raises TypeError.", "quantifier": "every heap of band objects, list of entries, property, EF and T", "why_tests_cant": "aliasing and cache state over all histories", "anchors": ["src/teflow/bandlib.py:MultiBands._N", "src/teflow/bandlib.py:MultiBands._K_n", "src/teflow/bandlib.py:MultiBands._CCRH", "src/teflow/bandlib.py:MultiBands.compile", "src/teflow/bandlib.py:MultiBands.clear", "src/teflow/bandlib.py:LinearBand._CCRH"]}
{"id": "C65", "title": "Bipolar thermal conductivity", "statement": "For an uncompiled MultiBands with conduction and valence bands of positive conductivity and T>=0, Kbip is non-negative and the total Ke is exactly the Ke of the conduction bands alone plus the Ke of the valence bands alone plus Kbip. With only one kind of band Kbip is 0. After compile(EF,T) (distinct bands, max_level at least 1) Kbip() is Kbip(EF,T).", "quantifier": "every set of bands, EF and T", "why_tests_cant": "algebra over all integrals and any number of bands", "anchors": ["src/teflow/bandlib.py:MultiBands.Kbip", "src/teflow/bandlib.py:MultiBands._K_n"]}
{"id": "C66", "title": "Guessing band types from offsets", "statement": "guess_btypes: if no delta is within 1e-6 of zero, every positive delta is C and every negative one V. If some are within 1e-6 of zero and the others all have one sign (at least one of them), all bands are of that sign's type. If the others have both signs or there are none, ValueError. These cases are exhaustive.", "quantifier": "every list of offsets", "why_tests_cant": "all lists", "anchors": ["src/teflow/bandlib.py:MultiBands.guess_btypes"]}
{"id": "C67", "title": "Constructing a MultiBands", "statement": "MultiBands(bands, deltas, btypes) raises ValueError if bands and deltas differ in length. With one type it applies to all bands; with any other number of (recognised) types the result has as many entries as there are types at most: bands beyond the types are silently dropped, extra types ignored; without types they are guessed from all deltas (ValueError if that fails; TypeError for deltas given as text). Only the first letter of a type counts, in either case. Each band object is left with the sign of its last entry; nothing else about it changes. append refuses a non-band, an unconvertible delta, an unknown type or an unguessable one with ValueError (empty type: IndexError), changing nothing. A compiled MultiBands keeps its old numbers after append or extend.", "quantifier": "every list of bands, deltas and types", "why_tests_cant": "all lengths and aliasings", "anchors": ["src/teflow/bandlib.py:MultiBands.__init__", "src/teflow/bandlib.py:MultiBands.append"]}
{"id": "C68", "title": "Extending a MultiBands", "statement": "m.extend(other) appends other's entries with their offsets in order and changes no band. m.extend(m) for a non-empty m never returns: the loop reads the list it is appending to.", "quantifier": "every pair of MultiBands", "why_tests_cant": "non-termination for every number of steps", "anchors": ["src/teflow/bandlib.py:MultiBands.extend"]}
{"id": "C69", "title": "Band models: the integrated density of states is the integral of the density, and how Kane compares with parabolic", "statement": "For every positive m_d (and Eg>0, or vF other than 0), in APSSPB, APSSKB and LinearBand idos(0)=0 and at every energy E>0 the derivative of idos is dos, which is positive. For one m_d, sigma0, T and E>0 the Kane model's trs is positive and at most the parabolic one, its dos at least the parabolic one, and trs falls short of the parabolic one by at most a fraction (E/Eg+4(E/Eg)^2)/3, so it tends to it for large Eg. APSSKB raises ValueError exactly when Eg is not positive.", "quantifier": "every energy, mass, gap and temperature", "why_tests_cant": "derivatives and inequalities over all reals", "anchors": ["src/teflow/bandlib.py:APSSPB.dos", "src/teflow/bandlib.py:APSSPB.idos", "src/teflow/bandlib.py:APSSKB.dos", "src/teflow/bandlib.py:APSSKB.idos", "src/teflow/bandlib.py:APSSKB.trs", "src/teflow/bandlib.py:APSSKB.__init__", "src/teflow/bandlib.py:LinearBand.dos", "src/teflow/bandlib.py:LinearBand.idos"]}
{"id": "C70", "title": "Hall function and parameters of the band models", "statement": "At every energy E>0, in both the parabolic and the Kane model, hall(E,T)*q*n(E) = K* times trs(E,T)^2 with n(E) the states below E (idos in cm^-3); K* lies in (0,1] and is 1 exactly for an isotropic mass ratio. UWT of a band made by from_UWT is the given number. from_DP gives m_d with m_d^3=Nv^2*m1*m2^2, Kmass=m1/m2 and sigma0*Ed^2 proportional to Nv*Cii times the mean of 1/m1, 1/m2, 1/m2; a missing or zero m2 means m2=m1.", "quantifier": "every energy, temperature, mass, mass ratio and deformation potential", "why_tests_cant": "identities over all reals", "anchors": ["src/teflow/bandlib.py:APSSPB.hall", "src/teflow/bandlib.py:APSSKB.hall", "src/teflow/bandlib.py:APSSPB.Kstar", "src/teflow/bandlib.py:APSSPB.UWT", "src/teflow/bandlib.py:APSSPB.from_UWT", "src/teflow/bandlib.py:APSSPB.from_DP", "src/teflow/bandlib.py:APSSKB.from_DP"]}
{"id": "C71", "title": "How the band parameters act on the reported properties", "statement": "For APSSPB and APSSKB with positive m_d, sigma0, Kmass at every EF and T>0, compared with the band of m_d=1 and sigma0=1: C is multiplied by sigma0, N and NH by m_d^(3/2), and S and L are the same. In the parabolic model C, S, L and PF depend on EF and T only through EF/(kB*T), and N only through it and a factor T^(3/2).", "quantifier": "every parameter, Fermi level and temperature", "why_tests_cant": "scaling of the quadrature over all inputs", "anchors": ["src/teflow/bandlib.py:APSSPB", "src/teflow/bandlib.py:APSSKB", "src/teflow/bandlib.py:romb_dfx"]}
{"id": "C72", "title": "valuate returns the band that reproduces the measured data", "statement": "APSSPB.valuate and APSSKB.valuate with positive temperature, conductivity and concentration, when the root finder converges: there is one Fermi level at which the band with the returned sigma0 and m_d has S equal to the measured S as closely as the root finder promises, L equal to the returned L, C exactly the measured conductivity and N (NH with hall=True) exactly the measured concentration; Ke = 1e-6*L*C*T, Ke+Kp is the measured K, UWT and (parabolic only) PFmax are those of that band, and Nopt its N (NH) at its EFopt. Keys whose data are missing are absent. Without temperature APSSPB.valuate returns only L, and it is the L of every parabolic band at every temperature at one reduced Fermi level where S is right. Without convergence the result is nan; exceptions pass through.", "quantifier": "every data point, subset of given data and root finder", "why_tests_cant": "composition of root finding, scaling and quadrature over all inputs", "anchors": ["src/teflow/bandlib.py:APSSPB.valuate", "src/teflow/bandlib.py:APSSKB.valuate", "src/teflow/bandlib.py:BaseBand.solve_EF"]}
{"id": "C73", "title": "RSPB: reduced properties, their inverses and the Lorenz number", "statement": "For a non-zero (positive for U and L) factor and delta>-1: iSr undoes Sr for every Nr>0 and Sr undoes iSr wherever iSr is defined, that is for every S/factor other than ln(1+delta); iSr is positive exactly above that threshold; Sr falls with Nr towards factor*ln(1+delta). iUr and Ur are inverse to each other for Nr>-2 and U>0, Nr>=0 exactly when U<=factor, and Ur falls with Nr below factor. Lr rises with Nr>0 strictly between 2 and pi^2/3 times factor and iLr is its inverse on that open range; beyond either end iLr is nan, as is Lr of a negative Nr. LxS of Sr(Nr) is Lr(Nr). With dt>=0 the Kane fit of LxS is defined for every S, is pi^2/3 at S=0 and approaches 2-2k+k^2 with k=1/(2dt/3+1) like 1/S. PFr with factor fC*fS^2 is Cr*Sr^2. The class constants are consistent: 1e-6*C0*S0^2=PF0, PF0*PFr_max=UWT_to_PFmax, N0*q*1e19=C0 to 1e-15.", "quantifier": "every reduced concentration, Seebeck coefficient, factor, delta and dt", "why_tests_cant": "inverse functions and monotonicity over all reals", "anchors": ["src/teflow/bandlib.py:RSPB.Sr", "src/teflow/bandlib.py:RSPB.iSr", "src/teflow/bandlib.py:RSPB.Ur", "src/teflow/bandlib.py:RSPB.iUr", "src/teflow/bandlib.py:RSPB.Lr", "src/teflow/bandlib.py:RSPB.iLr", "src/teflow/bandlib.py:RSPB.LxS", "src/teflow/bandlib.py:RSPB.Cr", "src/teflow/bandlib.py:RSPB.PFr"]}
{"id": "C74", "title": "RSPB.valuate: what is reproduced, and the effective mass that is not", "statement": "For -1<delta and a Seebeck coefficient above S0*ln(1+delta) there is one Nr>0 with Sr(Nr)=S such that the returned L is Lr(Nr), the conductivity Cr(Nr, C0, UWT) of the returned UWT is exactly the measured one and PFmax and sigma0 are multiples of UWT. Ke, Kp, m_eff and Nopt are returned only if conductivity, temperature and concentration are all given (Kp also needs dataK); then Ke=1e-6*L*C*T and Ke+Kp=K. But the returned m_eff does not reproduce the concentration: Nmr(Nr, N0, m_eff, T) is N0=2.509... times the measured one, and Nopt is N0 times the concentration at the optimum of a band that does reproduce it. For a Seebeck coefficient below the threshold (every n-type value, for delta<=1) L, UWT, PFmax, sigma0, Ke, Kp, m_eff are nan and Nopt is a negative number, without any error.", "quantifier": "every data point, subset of given data and delta", "why_tests_cant": "all data values", "anchors": ["src/teflow/bandlib.py:RSPB.valuate", "src/teflow/bandlib.py:RSPB.Nmr"]}
{"id": "C75", "title": "Idealised band and density-of-states lines", "statement": "bandline with a gap Eg>0 returns the energy e (from E0) that solves e(1+|e|/Eg)=parabolic energy, never farther from E0 than the parabolic line; every line is symmetric about k0, changes sign with the mass, passes through E0 at k0, and the parabolic one is hbar^2 k^2/(2m) in eV for k in 1/Angstrom with a constant right to 1e-16. dosline without gap is 0 on the wrong side of E0 and proportional to |m|^1.5*sqrt(distance) on the right side. dosline with a gap ignores E0 and the sign of the mass altogether; it is nan for -Eg<E<0 and negative for E<-Eg. For E0=0 and positive mass it is, up to one constant, the derivative of k^3 along the matching bandline. For E0=0 and positive mass, with or without gap, it is to a relative 1e-12 the number of states per energy and cell: the derivative of 2*(4/3 pi k^3)/((2 pi)^3/Vcell) along the matching bandline.", "quantifier": "every wave vector, energy, mass, offset and gap", "why_tests_cant": "identities and derivatives over all reals", "anchors": ["src/teflow/bandlib.py:bandline", "src/teflow/bandlib.py:dosline"]}
{"id": "C76", "title": "Total dos and transport function of several bands", "statement": "MultiBands.dos, trs and hall at energy E add each band's function of the distance from its edge into the band, and of 0 outside the band. Parabolic and Kane bands have dos, trs and hall 0 there, so they contribute only inside; a LinearBand has trs(0)=sigma0, so it contributes its full sigma0 to the total trs at every energy in the gap, where its dos is 0.", "quantifier": "every set of bands and energy", "why_tests_cant": "all energies and offsets", "anchors": ["src/teflow/bandlib.py:MultiBands.dos", "src/teflow/bandlib.py:MultiBands.trs", "src/teflow/bandlib.py:MultiBands.hall", "src/teflow/bandlib.py:LinearBand.trs"]}
{"id": "C77", "title": "Fitting variables: creation and bounds", "statement": "Over every history of creating variables and parameter containers, assigning, syncing and writing to containers: a variable's stored value stays between its bounds. An assignment outside the bounds raises ValueError and changes nothing; inside, a free variable then reads as the assigned value and a constrained one reads as before. Creating a tag that exists already does nothing, whatever the arguments. A creation refused for its initial value leaves a tag whose value cannot be read, assigned or synced (AttributeError) but which a later creation completes as if it were new. A creation refused for a constraint that is not callable (ValueError) takes the tag for good: every later creation of it succeeds silently and its value can never be read.", "quantifier": "every history, tag, bounds, constraint and value", "why_tests_cant": "state over unbounded histories", "anchors": ["src/teflow/kappa.py:Variable.__new__", "src/teflow/kappa.py:Variable.__init__", "src/teflow/kappa.py:Variable.value"]}
{"id": "C78", "title": "Parameter containers follow their variables", "statement": "After Parameters(k=..., ...), in every later state without direct writes: an entry given as a number keeps it and an entry given as a free variable holds its value times its scale. An assignment rewrites exactly the entries that refer to the assigned variable and changes no other variable. A direct write to an entry changes that entry only, no variable, and is overwritten when its variable is synced.", "quantifier": "every history, container and variable", "why_tests_cant": "propagation over unbounded histories and aliasing", "anchors": ["src/teflow/kappa.py:Parameters.__init__", "src/teflow/kappa.py:Variable.register", "src/teflow/kappa.py:Variable.sync", "src/teflow/kappa.py:Variable.value"]}
{"id": "C79", "title": "Constrained variables", "statement": "The declared dependencies always determine exactly one true value of every variable. A variable constrained on free variables only always reads as it. A calculation step that lists constrained variables after those they depend on leaves every listed variable and every entry referring to it right. Otherwise not: in the example of the class documentation (A=10, B=2A, C=A+B), after A=20 C reads 40 instead of 60 until B is synced, and a calculation step that lists C before B leaves the container at 40.", "quantifier": "every history, dependency graph and calculation step", "why_tests_cant": "all dependency graphs and orders", "anchors": ["src/teflow/kappa.py:Variable.value", "src/teflow/kappa.py:Variable.sync", "src/teflow/kappa.py:BaseKappaModel._cal"]}
{"id": "C80", "title": "What a fit leaves behind", "statement": "fit: however often and wherever within the bounds curve_fit evaluates the model, afterwards the free variables listed hold the arguments of its last evaluation (not the optimum it returns), the constrained ones listed in dependency order follow, and no other variable has changed. Without a free variable nothing happens; p0 or bounds raise ValueError. A step with the wrong number of arguments raises ValueError and changes nothing; one with an argument out of bounds raises ValueError after the earlier arguments have been assigned.", "quantifier": "every sequence of evaluations by the optimiser", "why_tests_cant": "the optimiser's evaluations are arbitrary", "anchors": ["src/teflow/kappa.py:BaseKappaModel._cal", "src/teflow/kappa.py:BaseKappaModel.fit", "src/teflow/kappa.py:KappaKlemens._cal", "src/teflow/kappa.py:KappaKlemens.fit", "src/teflow/kappa.py:parse_KappaFit"]}
{"id": "C81", "title": "Phonon scattering rates: sign, growth and frequency laws", "statement": "For non-negative parameters (positive lengths, volumes and velocities) every rate is non-negative and never falls with frequency (for three-phonon processes nor with temperature). Three-phonon and stacking-fault rates scale with w^2, point defects with w^4, dislocations are a*w^3+b*w, Cahill proportional to w, grain boundaries constant and never larger for larger grains. Nanoparticles stay strictly below the geometrical limit and vanish without contrast.", "quantifier": "every parameter, frequency and temperature", "why_tests_cant": "inequalities over all reals", "anchors": ["src/teflow/kappa.py:ThreePhonon", "src/teflow/kappa.py:PointDefect", "src/teflow/kappa.py:GrainBoundary", "src/teflow/kappa.py:Nanoparticles", "src/teflow/kappa.py:Dislocations", "src/teflow/kappa.py:StackingFaults", "src/teflow/kappa.py:CahillScattering"]}
{"id": "C82", "title": "Phonon scattering rates: units", "statement": "In SI units the point-defect, grain-boundary, stacking-fault, Cahill and nanoparticle rates are exactly the documented formulas. The three-phonon rate is the documented one with the neutron mass in place of the atomic mass unit, 0.9914 to 0.9915 of it. The dislocation rate has the documented strain term (its constant right to 1e-15) but vs (in km/s) times the documented core term.", "quantifier": "every parameter, frequency and temperature", "why_tests_cant": "unit conversion for all inputs", "anchors": ["src/teflow/kappa.py:ThreePhonon", "src/teflow/kappa.py:PointDefect", "src/teflow/kappa.py:GrainBoundary", "src/teflow/kappa.py:Nanoparticles", "src/teflow/kappa.py:Dislocations", "src/teflow/kappa.py:StackingFaults", "src/teflow/kappa.py:CahillScattering"]}
{"id": "C83", "title": "Phonon scattering by free electrons", "statement": "The reduction factor computed from EF lies strictly between 0 and 1, never falls with EF (rises as long as the exponent is at most 23), is the documented expression where its exponent is at most 23 and larger than it otherwise; frequencies below 1e-6 use the value at 1e-6. The rate is positive and below coef*w. In SI units the coefficient is the documented one to 1e-7 and the exponents the documented ones, every term to 1e-14.", "quantifier": "every parameter, Fermi level, frequency and temperature", "why_tests_cant": "inequalities over all reals", "anchors": ["src/teflow/kappa.py:FreeElectrons.Rep", "src/teflow/kappa.py:FreeElectrons._cal_Rep", "src/teflow/kappa.py:FreeElectrons.coef", "src/teflow/kappa.py:FreeElectrons.__call__"]}
{"id": "C84", "title": "Required parameters of scattering mechanisms", "statement": "ThreePhonon and PointDefect raise ValueError exactly if coef is missing and one of the parameters it would be computed from is. Nanoparticles raises it exactly if both N1 and phi or one of vs, R, D0, D1 is missing, and a given phi takes precedence over N1 (otherwise phi=N1*4/3*pi*R^3). FreeElectrons is constructed exactly if, for each of coef and Rep that is missing, all parameters it is computed from are given. Given non-zero coef and Rep are used as they are; a given Rep or coef equal to 0 is treated as absent and the evaluation raises KeyError.", "quantifier": "every combination of given and missing parameters", "why_tests_cant": "all combinations and values", "anchors": ["src/teflow/kappa.py:ThreePhonon.__init__", "src/teflow/kappa.py:PointDefect.__init__", "src/teflow/kappa.py:Nanoparticles.__init__", "src/teflow/kappa.py:Nanoparticles.phi", "src/teflow/kappa.py:FreeElectrons.__init__", "src/teflow/kappa.py:FreeElectrons.coef", "src/teflow/kappa.py:FreeElectrons.Rep"]}
{"id": "C85", "title": "Putting a Debye model together", "statement": "KappaDebye(vs, td, components) succeeds exactly if every component is a scattering mechanism or a kappa model, no two mechanisms and no two models share a tag and there is at least one mechanism; mechanisms and models keep their order. Otherwise the first component that does not fit decides: NotImplementedError for an unknown type, ValueError for a repeated tag; without mechanism ValueError. scattering() reports each mechanism's rate under its tag and then their sum as 'total'.", "quantifier": "every list of components", "why_tests_cant": "all lists", "anchors": ["src/teflow/kappa.py:KappaDebye.__init__", "src/teflow/kappa.py:KappaDebye.scattering"]}
{"id": "C86", "title": "Spectral thermal conductivity", "statement": "spectral at frequency w divides one value by each mechanism's rate, or with accumulate by the sum of the rates so far under labels A, A+B, A+B+C that never coincide (as many entries as mechanisms). The value is 0 above the Debye frequency, w below 1e-6 counts as 1e-6, otherwise it is the documented expression in SI units with hbar right to 1e-14, positive and below its classical limit. With positive rates each further mechanism lowers the accumulated entry and its reciprocal is the sum of the reciprocals of the single entries.", "quantifier": "every list of mechanisms, frequency and temperature", "why_tests_cant": "all numbers of mechanisms and inequalities over all reals", "anchors": ["src/teflow/kappa.py:KappaDebye.spectral", "src/teflow/kappa.py:KappaDebye._spectral_factor", "src/teflow/kappa.py:KappaDebye.wd"]}
{"id": "C87", "title": "Lattice thermal conductivity of the Debye model", "statement": "For mechanisms with continuous positive rates between 1e-6 and the Debye frequency (taking the quadrature as exact): adding a mechanism lowers the conductivity, which stays positive; nscat=n>0 is the conductivity of the first n mechanisms alone, n at least their number or 0 that of all, and without nscat the additional models are added; the order of mechanisms does not matter; multiplying all rates by c divides it by c; with rates that do not depend on temperature it rises with temperature; if the total rate is never below r it is below kB*wd^3/(6*pi^2*vs*r).", "quantifier": "every list of mechanisms, temperature and parameters", "why_tests_cant": "inequalities between integrals of arbitrary functions", "anchors": ["src/teflow/kappa.py:KappaDebye.__call__", "src/teflow/kappa.py:KappaDebye._spectral_sum", "src/teflow/kappa.py:KappaDebye._spectral_factor"]}
{"id": "C88", "title": "Cumulative thermal conductivity", "statement": "cumulative starts at 0, has as many values as frequencies and each step is the trapezoid of the spectral values, so it never falls for increasing frequencies. cumulative_mfp_t (non-negative shares) never falls with the path, lies between 0 and the sum of all shares and reaches it; but it is never more than the shares of the bins with both ends' mean free paths below the given path, and strictly less if the larger end of such a bin is within the bin's own width of the path: each bin is counted one width too late. More than one temperature or bins narrower than 1e-5 rad/ps raise ValueError.", "quantifier": "every spectral function, rate, path and number of bins", "why_tests_cant": "all functions and bin numbers", "anchors": ["src/teflow/kappa.py:KappaDebye.cumulative", "src/teflow/kappa.py:KappaDebye.cumulative_mfp_t"]}
{"id": "C89", "title": "Debye temperature, Gruneisen parameter and mean sound velocity", "statement": "vs_to_td is the documented Debye temperature in SI units to 1e-14 and its cut-off frequency gives exactly three modes per atom. vs_to_gm is the documented function of the Poisson ratio, positive exactly for (v1/v2)^2>4/3, rising with v1 and below 9/2. vs_mean lies between v1 and v2 for every integer p, its p-th power is the mean of the p-th powers, and p=0 gives the geometric mean. Arrays of velocities give a single number: for n equal pairs v if p is not 0, but v^n for p=0.", "quantifier": "every velocity, volume, Poisson ratio and exponent", "why_tests_cant": "identities and inequalities over all reals and integers", "anchors": ["src/teflow/kappa.py:KappaDebye.vs_to_td", "src/teflow/kappa.py:KappaDebye.vs_to_gm", "src/teflow/kappa.py:KappaDebye.vs_mean"]}
{"id": "C90", "title": "Klemens model of alloys", "statement": "With Kpure>0 the conductivity lies strictly between 0 and Kpure for every composition X and, as soon as u^2>=1e-12, is Kpure*atan(u)/u and below Kpure*(pi/2)/u, u^2 being the documented expression in SI units. X and 1-X give the same value. On [0,1/2] it never rises with X (falls as soon as u^2>1e-12 at the larger X), nor with G0 for 0<X<1. X outside 0..1 gives the value at X=0, Kpure*atan(1e-6)/1e-6.", "quantifier": "every positive parameter and every composition", "why_tests_cant": "inequalities over all reals", "anchors": ["src/teflow/kappa.py:KappaKlemens.u2", "src/teflow/kappa.py:KappaKlemens.__call__"]}
{"id": "C91", "title": "Disorder parameters from occupations", "statement": "fluctuation with as many rows of masses (radii) as of occupations, each of the same length, is the documented expression, the weights being the sums of the rows, if all sums are 1 to 1e-5+1e-8, whatever renorm; otherwise each row is divided by its sum, or ValueError with renorm=False. So multiplying the rows by numbers of sites that are not all 1 changes nothing. With exact sums, non-negative occupations and positive masses Gamma_M is never negative, zero exactly if no sublattice is occupied by different masses, and depends on mass ratios only; a binary sublattice gives x(1-x)(a-b)^2/mean^2, likewise for radii. No occupations, or a row of masses or radii longer than every row of occupations, raise ValueError; a mass missing at the end of a shorter row silently counts as 1.", "quantifier": "every number of sublattices and species, all occupations, masses and radii", "why_tests_cant": "all list lengths and reals", "anchors": ["src/teflow/kappa.py:KappaKlemens.fluctuation"]}
{"id": "C92", "title": "Configurational entropy", "statement": "For non-negative occupations that sum to 1 on every sublattice the reported entropy lies between 0 and the sum of ln(number of species), is 0 exactly if every sublattice is occupied by a single species, and is minus the documented expression if no occupation lies strictly between 0 and 1e-12; so with any mixed occupation the documented expression is negative and the returned value positive.", "quantifier": "every number of sublattices and species, all occupations", "why_tests_cant": "all list lengths and reals", "anchors": ["src/teflow/kappa.py:KappaKlemens.fluctuation"]}
{"id": "C93", "title": "Slack, bipolar and power-law models", "statement": "KappaSlack gives the documented expression for a number A and for the names 'Julian' and 'Qin'; evaluating with 'Constant' raises KeyError and with any other name AttributeError. Julian's coefficient is positive and below 3.43e-6 for every non-zero gm, Qin's between 0 and 1 and rising for gm>0. The conductivity is proportional to 1/T and, with td^3=N*ta^3, to N^(1/3)*ta^3. The bipolar term is the documented one to 1e-15 in kB/e, positive, below Kbp*(T/300)^p for Eg>0, falls with Eg and rises with T for p,Eg>=0 not both 0. The power law gives Kamb+K0 at 300 K, for Kamb>0 stays above K0, falls with T for n<0 and rises for n>0.", "quantifier": "every parameter and temperature", "why_tests_cant": "identities and inequalities over all reals", "anchors": ["src/teflow/kappa.py:KappaSlack", "src/teflow/kappa.py:KappaBipolar", "src/teflow/kappa.py:KappaPowerLaw"]}
{"id": "C94", "title": "Variables of a fitting configuration", "statement": "An entry of section variables is one to be fitted exactly if its text has a question mark preceded by at most one word; written as 'initial ? scale <lower, upper>' with any spacing, every part but the question mark optional, it is read as such with defaults 1, 1, 0 and 1000. Anything after the scale that is not of the form <..,..> (a missing comma or bracket) is silently ignored. A new tag then is a variable with that value, scale and bounds, ValueError if the initial value is outside them; a tag that exists already in the process keeps its old value, bounds and scale. Other entries are numbers, or ValueError. The section as a whole gives every entry under its own tag in file order, and stops at the first that cannot be read.", "quantifier": "every text, spacing, number and state of earlier variables", "why_tests_cant": "all strings", "anchors": ["src/teflow/kappa.py:parse_KappaFit", "src/teflow/kappa.py:Variable.__new__"]}
{"id": "C95", "title": "Building a model from the sections of a configuration", "statement": "A model built from a section carries the name it was asked for by as tag; its parameters are exactly the section's entries its type knows, all required ones among them (a misspelt optional entry is silently ignored). An entry '@ tag' is the variable or constant tag, '@' alone that of the entry's own name, other text a number or else text as it stands; a component list gives the named components in order. No section: NoSectionError; unknown type: TypeError; a missing required entry, a blank entry (even an unknown one) or an undefined variable: never a model, and ValueError if all entries in front of it can be read. Any section except DEBYE with all required and only readable entries succeeds; a DEBYE section whose components can be built succeeds exactly if no component is listed twice and one is a scattering mechanism, else RuntimeError. Reading ends if component lists never lead back to a section; a section that leads back to itself is never finished.", "quantifier": "every configuration, name and nesting depth", "why_tests_cant": "all texts and unbounded recursion", "anchors": ["src/teflow/kappa.py:parse_KappaFit", "src/teflow/kappa.py:EXECMETA", "src/teflow/utils.py:ExecWrapper.execute", "src/teflow/utils.py:CfgParser.pmatch"]}
{"id": "C96", "title": "Configuration file written back with fitted values", "statement": "With substituted on (tags without characters special in regular expressions or '#'), the first line of section variables that gives a fitted variable with a question mark keeps what is in front of its '=' and gets ' value # ?' instead of everything through the first '?'; every other line, and the number of lines, stays. Read back, that line gives the same tag with the written number and no variable any more. A fitted variable that no line of the section gives with a question mark (inherited from DEFAULT or interpolated) raises RuntimeError.", "quantifier": "every file, any number of variables, all texts", "why_tests_cant": "all files and texts", "anchors": ["src/teflow/kappa.py:parse_KappaFit", "src/teflow/utils.py:CfgParser.__init__"]}
{"id": "C97", "title": "Sample points, rows and units of conductivity outputs", "statement": "Sample points are those of predict, else abs(npoints) evenly spaced points over the data range widened at each end by abs(margin) times its length; without predict and without fitted variables RuntimeError. A Debye model whose section is called DEBYE gives, with splitkappa, the total, one row per mechanism (row i being the conductivity of the first i mechanisms alone, labelled with their names) and one per additional model; the last mechanism row plus the additional rows is the total. Without splitkappa it gives the total only, labelled Kappa-DEBYE. A Debye model of any other name gives a single row, and a model called DEBYE of another type raises AttributeError. frequnit: a number, or by its beginning in any case THz, omega_d/wd/w_d/norm, reduce/x or meV with their physical meaning, anything else silently 2pi.THz; the unit leaves the area under the spectral curve unchanged.", "quantifier": "every data set, margin, number of points, list of mechanisms, name and unit text", "why_tests_cant": "all reals, lists and texts", "anchors": ["src/teflow/kappa.py:parse_KappaFit", "src/teflow/kappa.py:KappaDebye.__call__"]}
{"id": "C98", "title": "Files of CTA and ZEM instruments", "statement": "A text for CTA or ZEM (in place, or 'file:' and a path, whose content is taken as it is; a missing file raises FileNotFoundError) is read from behind the first line that contains all titles of that instrument (none: IOError). Each following line, blanks around it removed, with at least five tab-separated cells gives a row from cells 1, 2 and 5 - temperature plus 273 (not 273.15), resistivity, Seebeck coefficient, both times 10^6 for ZEM and unchanged for CTA - in the order of the lines; shorter lines give nothing, and one unreadable number among these cells raises ValueError. Because blanks (tabs too) at the beginning of a line are dropped, a row with an empty first cell is shifted to the left instead of being rejected.", "quantifier": "every text, every line and every number", "why_tests_cant": "all strings", "anchors": ["src/teflow/loader.py:parseCTA", "src/teflow/loader.py:parseZEM", "src/teflow/loader.py:_parse_CTA_ZEM", "src/teflow/loader.py:_registerInstr"]}
{"id": "C99", "title": "Files of laser flash instruments", "statement": "A text for LFA is read from behind the first line that begins with '##Results' (none: IOError), leaving out one title line. Lines that begin with '#Mean' give temperature plus 273 and diffusivity from the second and third of their non-empty comma-separated cells, if there are three (unreadable: ValueError); if there is any such row, only those are returned. Otherwise every line with at least three cells, empty ones counted, gives them from its second and third cell (unreadable: IOError), possibly nothing at all. Laser flash data cannot be written in place in a configuration: since lines that begin with # are comments there, such a value always raises IOError (unless the # directly follows the equals sign).", "quantifier": "every text, every line and every number, every configuration value", "why_tests_cant": "all strings", "anchors": ["src/teflow/loader.py:parseLFA", "src/teflow/loader.py:_registerInstr", "src/teflow/utils.py:CfgParser.__init__"]}
{"id": "C100", "title": "Data sets assembled from instrument files", "statement": "parse_TEfile returns R and S with the temperatures of the one instrument (ZEM or CTA), and A and K with the temperatures of the LFA file; K is diffusivity times density times heat capacity, element by element. Overrides (specify) win over the file. Missing section entry: KeyError; missing sample, no or two instruments, missing LFA, missing density: ValueError, in this order. Heat capacity: without Cp, or with Cp ending in @Dulong-Petit, @DP or @3R, the constant 3R/weight - numbers in front of the @ are read and then ignored; @Mg3Sb2 raises NotImplementedError, other names ValueError; a list of numbers must have exactly one number per LFA temperature (a single number is not repeated), else ValueError.", "quantifier": "every configuration, override and file content", "why_tests_cant": "all configurations and texts", "anchors": ["src/teflow/loader.py:parse_TEfile", "src/teflow/loader.py:parse_CpT"]}
{"id": "C101", "title": "A band of a configuration is built from the entries its type knows", "statement": "parse_Bands: for each word of the entry 'bands' the first section called like the word or word.type is taken; every one of its values must read as a number (also values of entries that are then ignored), else ValueError; without such a section NoSectionError; an unknown type is a KeyError. The constructor of the type gets exactly the entries it knows (others are dropped without a message), with the numbers given, nothing for absent ones; an absent required entry is a ValueError and a failing constructor a RuntimeError.", "quantifier": "all configurations, names, contents, number readers and constructors", "why_tests_cant": "sections, entries and texts are unbounded; the order of the failures and the silent dropping depend on the whole configuration", "anchors": ["src/teflow/bandlib.py:parse_Bands", "src/teflow/bandlib.py:EXECMETA", "src/teflow/utils.py:CfgParser.pmatch", "src/teflow/utils.py:ExecWrapper.execute"]}
{"id": "C102", "title": "Offsets and types of the bands of a configuration", "statement": "parse_Bands: 'bands' is required (ValueError). Bands appear in the order of the words, each a new object with the offset at its place (zeros without 'deltas'); a different number of offsets is a ValueError. One type applies to all bands; with two or more types exactly so many bands are kept and the others are dropped silently; a 'btypes' entry without any word gives a model without bands (after the types could be guessed, else ValueError). Without 'btypes' the types follow from all offsets: positive conduction, negative valence, offsets near zero with the only clear side, otherwise ValueError - hence leaving out both 'deltas' and 'btypes' is a ValueError for every non-empty list of bands, although the code has a default for deltas. A used word that names neither type, or a used object that is no band, is a ValueError.", "quantifier": "all configurations, all lists of bands, offsets and type words", "why_tests_cant": "the outcome depends on all offsets and types together, for lists of any length", "anchors": ["src/teflow/bandlib.py:parse_Bands", "src/teflow/bandlib.py:MultiBands", "src/teflow/bandlib.py:MultiBands.guess_btypes"]}
{"id": "C103", "title": "Temperatures, Fermi energies and compilation in parse_Bands", "statement": "Overrides replace entries of the section 'entry' (the last one counting), a missing section is a KeyError. Without T, or without EF, the model comes back uncompiled and without properties. EF without @ gives numbers paired with T one by one, a single number being repeated; lengths that do not fit are a ValueError. EF 'data @ quantity' (before the first @, after the last @, blanks around removed) is solved for every pair from the entry 'initial' (0 without it); one failing pair, or an 'initial' that is no number, is a RuntimeError. The model returned is compiled: for every pair every property gives, whatever arguments are passed, the number the uncompiled model has at that Fermi energy and temperature. The properties are the words of the entry or T EF N C S PF L Ke. A model with a band that has no Hall function (LinearBand) ends in a TypeError.", "quantifier": "all configurations, temperatures, Fermi energies, solvers and band functions", "why_tests_cant": "quantifies over arbitrary band functions, pairs and texts", "anchors": ["src/teflow/bandlib.py:parse_Bands", "src/teflow/bandlib.py:MultiBands.compile", "src/teflow/bandlib.py:BaseBand.solve_EF", "src/teflow/bandlib.py:LinearBand"]}
{"id": "C104", "title": "Names of generated output files", "statement": "A command given a non-empty output name uses exactly that name. Otherwise the name is formed from the last component of the path of the input file: what is in front of its extension (the part from the last dot, if something is in front of and behind that dot), an underscore, the suffix, and the extension - replaced by the one of the command if it has one and the input has an extension; an input without extension gives an output without extension. The generated name has no directory (the file goes to the current directory) and is never the path or the name of the input file. Findings: inputs of the same name in different directories, or that differ only in the extension where it is replaced, get the same output name. The five files of one kappa run have different names, so none overwrites another.", "quantifier": "all paths ending in a proper name, all suffixes, extensions and output options", "why_tests_cant": "file names are arbitrary texts; the absence of a collision is a statement about all of them", "anchors": ["src/teflow/interface.py:_suffixed", "src/teflow/interface.py:do_kappa"]}
{"id": "C105", "title": "Refining a data file", "statement": "refine without columns writes one line for every line of the input with at least one word in front of a #, in order, its words separated by one blank; read again, the output has exactly the rows of the input, and refining it again gives the same text. With columns it writes for every row the words of those columns in the given order, negative numbers counting from the end. A row that lacks a column ends the command with IndexError after the rows in front of it have been written (finding: a truncated output file remains). A missing input raises FileNotFoundError and a column that is not an integer ValueError, before any file is touched. No other file changes.", "quantifier": "all input texts, column lists, headers and file systems", "why_tests_cant": "texts of all sizes and layouts of blanks, comments and empty lines", "anchors": ["src/teflow/interface.py:do_refine"]}
{"id": "C106", "title": "Putting data files side by side", "statement": "mixing --extend writes rows whose words are those of the i-th rows of all inputs one after the other (comments and blank lines left out); the number of rows is that of the shortest input, the rest of longer inputs being dropped silently (finding). --raw-extend joins the lines themselves, comments and blank lines included, blanks around them removed, by one blank, up to the shortest input. With --padding the number of rows is that of the longest input, and below a shorter input its words are replaced by the padding repeated as often as its last row has words (not at all for an input without rows); --raw-extend then has no effect (finding); if all inputs are rectangular, so is the output. A missing input raises FileNotFoundError before any file is touched. No other file changes.", "quantifier": "all numbers and texts of the input files, all labels without newline, all padding words", "why_tests_cant": "number, sizes and layouts of files are unbounded", "anchors": ["src/teflow/interface.py:do_mixing"]}
{"id": "C107", "title": "Weights and scale of a mixture", "statement": "The weights text of mixing is read digit by digit if it consists of digits only - \"10\" means the two weights 1 and 0, and for a single file it raises ValueError (finding) - and otherwise as numbers separated by blanks, a word that is no number raising ValueError. Without weights all files count the same. If the absolute value of the scale is below 1e-4 (as by default) the result is the weighted mean, elementwise; otherwise the scale times the weighted sum; by default the plain mean of the files. A number of weights different from the number of files raises ValueError for texts of digits.", "quantifier": "all weight texts, scales, numbers of files and data of equal shapes", "why_tests_cant": "all texts and arrays of all sizes", "anchors": ["src/teflow/interface.py:do_mixing", "src/teflow/mathext.py:mixing"]}
{"id": "C108", "title": "Interpolating the columns of a data file", "statement": "The interpolation command takes its sampling points from the first column of the output file if that file exists already; otherwise, if --range start:step:stop is given, it uses start+i*step for all i with i < (stop-start)/step + 0.001, so that a range that hits its end includes the end; otherwise it uses npoints evenly spaced points from the first to the last x (a range of other than three fields raises ValueError). The data reach the interpolation sorted by x, every property value staying with its x, and unchanged if x is already non-decreasing. The output file holds the points and the interpolated columns, or with --bare the interpolated columns only; no other file changes, and a failing command changes no file. An unknown method raises ValueError. Findings: the default method linear (and line) without an extrapolation value always fails, with TypeError if all else is in order; running the command again takes the points of the first run whatever the options say, and after --bare the first property column is taken for the points.", "quantifier": "all file systems, data, options, methods and interpolation routines", "why_tests_cant": "arbitrary data, ranges and repeated runs", "anchors": ["src/teflow/interface.py:do_interp", "src/teflow/mathext.py:vinterp"]}
{"id": "C109", "title": "Cutting off the columns of a data file", "statement": "The cut-off command accepts (in any case) the methods fd, fermi-dirac, fermidirac, ss and smoothstep and raises ValueError otherwise - also for its own default method bz, so that it always fails without -m although its help says the default is fd (finding). It multiplies the chosen columns (all but the first by default; negative numbers count from the end; a column chosen twice is multiplied once) of every row by the factor of the first number x of the row, 1/(1+exp(10(x-Tc)/width)) or the smooth step, and leaves the others; with --bare only the chosen columns are written, in the given order. For a positive width the factor is 1/2 at Tc, in [0,1], non-increasing; the smooth step is 1 up to half a width below Tc and 0 from half a width above; the other stays strictly between 0 and 1 and is 1/(1+exp 5) half a width above. A column that is no integer raises ValueError, one outside the row IndexError. A failing command changes no file, and no other file than the output changes.", "quantifier": "all tables, column lists, methods and temperatures", "why_tests_cant": "arbitrary tables and option texts", "anchors": ["src/teflow/interface.py:do_cutoff", "src/teflow/mathext.py:fermidirac", "src/teflow/mathext.py:smoothstep"]}
{"id": "C110", "title": "Temperatures of formatted data", "statement": "The format command uses the temperatures in the first column of the output file if that file exists already, whatever the temperature options say. Otherwise it generates them: for a step above 23 K the temperatures are 300 K (unless --no-rt) followed by 323+i*step, otherwise 300+i*step, for i from 0 to the integer nearest to (Tmax-start)/step (the even one of two), where Tmax is the option or, if that is absent or 0, the highest temperature in the data. The series exists, is unique and strictly increasing; its last temperature is within half a step of Tmax whenever Tmax is above start minus half a step, so it may lie beyond the data (finding: 337 K with the default step 25 gives 348 K); with a lower Tmax only 300 K (or nothing) is left, and an empty series raises IndexError and writes nothing, as do (ValueError) data without any temperature if the option gives none.", "quantifier": "all data, positive steps, maxima and file systems", "why_tests_cant": "real-valued steps and maxima and data of all sizes", "anchors": ["src/teflow/interface.py:do_format"]}
{"id": "C111", "title": "Interpolation methods and columns of formatted data", "statement": "The method option gives one word for all of C, S, K or one for each (further words are ignored); none or two words raise ValueError. A word starting with poly (in any case) selects the polynomial of its last character (finding: poly12 means poly2 and poly means the non-existing polyY); otherwise its first character alone decides: L, C, P, A or a digit 1-9 (37 means poly3); other words raise ValueError. The output has the column T, followed by C, S and K as far as the data have them, each being the data of that property sorted by temperature and interpolated with its method at all the output temperatures; with --calculate a missing one raises ValueError. A failing command changes no file, and only the output file changes.", "quantifier": "all option texts, data sets and interpolation routines", "why_tests_cant": "arbitrary option texts and data", "anchors": ["src/teflow/interface.py:do_format"]}
{"id": "C112", "title": "Calculated columns of formatted data", "statement": "With --calculate the columns are T, C, S, K, L, Ke, Kp, PF, ZT, ZTave, CF in this order. PF = 1e-6 C S^2, ZT = 1e-4 PF T/K at every temperature; ZTave at the i-th temperature is 1e-6 (int S)^2 (T0+Ti)/2 / (int rho * int K) with trapezoidal integrals from the first temperature and rho = 1e4/C, and equals ZT where the integral of K is at most 1e-3 in magnitude, in particular at the first temperature; for constant properties it is the ZT of the mean of the first and the current temperature; CF satisfies (1 + 1e-6 CF S T)^2 = 1 + ZT. L, Ke, Kp are those of the band model evaluated with the absolute values of T, C, S, K. Finding: if the data set has data of L, the column L does not hold them but the K data interpolated with the method of S (equal to the column K if all methods are the same), Ke and Kp following from it.", "quantifier": "all data, temperatures and methods", "why_tests_cant": "real formulas over tables of all sizes", "anchors": ["src/teflow/interface.py:do_format"]}
{"id": "C113", "title": "Number files written by the commands", "statement": "A file written with default options consists of a line \"#title - time program\", a line \"#\" with the labels two blanks apart if there are any labels, and one line of numbers, a blank apart, per row. --bare leaves only the lines of numbers, whether or not --headers is given. --headers writes the labels (the caption if there are no labels) as the first line without \"#\", and the caption is lost. Loading a default or bare file gives back exactly the rows of the values that were printed. Finding: the file written with --headers has the labels as its first data row, so loading it, as every other command does, raises ValueError if any label is not a number. Loading a file whose rows differ in length raises ValueError as well.", "quantifier": "all titles, labels, tables and number formats that print words without blanks and #", "why_tests_cant": "tables of all sizes, all labels and formats", "anchors": ["src/teflow/interface.py:_to_file", "src/teflow/interface.py:OPTS"]}
{"id": "C114", "title": "ztdev command", "statement": "For a file with at least four columns T, C, S, K (further ones are ignored) the command writes one row (T0, Ti, Yita, ZTdev) per temperature, where Yita is the efficiency profile of the optimisation for the given data and ZTdev = ((Ti-T0(1-y))/(Ti(1-y)-T0))^2-1 with y = Yita/100, or 0 where that denominator is at most 1e-3 in magnitude; the first row has Yita = 0. With --yita the first three columns are Tc, Th, Yita and only ZTdev is added, row by row. Fewer columns raise ValueError, a missing file FileNotFoundError, and errors of the optimisation are passed on; no file is changed then, and otherwise only the output file, whose first two lines are comments unless --bare.", "quantifier": "all data files, minimisers and file systems", "why_tests_cant": "real tables of all sizes and arbitrary minimisation routines", "anchors": ["src/teflow/interface.py:do_ztdev", "src/teflow/ztdev.py:valuate"]}
{"id": "C115", "title": "engout command", "statement": "For a file of exactly four columns T, C, S, K (resistivities instead of C with --resistivity) with increasing temperatures the command writes, for every temperature but the first, the row (T0, Ti, PFeng, ZTeng, Pout, Yita) with PFeng = 1e-6 (int S)^2/int rho, ZTeng = PFeng (Ti-T0)/int K, Pout = 1e-3 PFeng (Ti-T0) 100/(4L) and Yita the efficiency at the reduced current 1/(1+sqrt(1+Zeng(2<TS>/<S> - <T rho>/<rho>))), all integrals being trapezoidal sums over the rows up to Ti. With --pair the file has at least seven columns T C S K C S K; the leg with the smaller mean S is the n-leg (the second one if the means agree), so the order of the legs in the file does not matter if the means differ; the couple has S = Sp-Sn, rho = (1+a)(rho_p+rho_n/a), K = (K_p+a K_n)/(1+a) with the section ratio a = sqrt(rho_p K_n/(rho_n K_p)) for ZTeng and Yita and a = sqrt(rho_p/rho_n) for PFeng and Pout. Too few columns and a length that is not positive raise ValueError; findings: a single leg with more than four columns raises ValueError although at least four are asked for, and a file of one row raises IndexError. A failing command changes no file; only the output file is written, with two comment lines unless --bare.", "quantifier": "all data files, lengths and file systems; integrals of rho and K non-zero (positive for couples), of S non-zero (different)", "why_tests_cant": "real tables of all sizes and lengths", "anchors": ["src/teflow/interface.py:do_engout", "src/teflow/engout.py:GenLeg.valuate", "src/teflow/engout.py:GenPair.valuate"]}
{"id": "C116", "title": "band --modelling command", "statement": "The valuation of the chosen model is called with exactly the absolute values of those of the columns S, T, C, N, K the data file has (as dataS, dataT, ...), and for SKB with Eg, the gap given with this command, whatever was run before in the same process; nothing else is passed. SKB without a gap raises RuntimeError, with a gap that is not positive ValueError, both before the data are read; a missing S column (for SKB also a missing T column) raises ValueError and the model is not called; an exception of the model becomes RuntimeError. -p keeps exactly the listed results, in the listed order; unknown names are ignored silently. The output has the input columns first, in the order S, T, C, N, K and with their signs, then the results that are not called like one of them; with --bare only the results. Finding: if no column is left (--bare and -p with unknown names only) or columns differ in length, ValueError is raised. A failing command writes no file.", "quantifier": "all data, options, models and histories of such commands in one process", "why_tests_cant": "arbitrary histories, data and models", "anchors": ["src/teflow/interface.py:do_band", "src/teflow/utils.py:ExecWrapper", "src/teflow/bandlib.py:EXECMETA"]}
{"id": "C117", "title": "band simulation command", "statement": "The configuration is read with exactly those of the options --T, --EF, --deltas, --btypes, --initial, -p that were given, the last value winning if one is repeated. If the configuration names no properties, RuntimeError is raised. Otherwise the file <name>_<suffix>.txt (or the given output file) gets one column per distinct property, in the order of their first occurrences, labelled by the properties. An error while calculating a property is passed on; columns of different lengths, or no property at all, raise ValueError; a failing command writes no file, and no other file is changed.", "quantifier": "all options, configurations, models and file systems", "why_tests_cant": "arbitrary options and property lists with repetitions", "anchors": ["src/teflow/interface.py:do_band", "src/teflow/interface.py:_StoreDict", "src/teflow/interface.py:_to_file"]}
{"id": "C118", "title": "kappa command", "statement": "A setting is taken from -Q (splitkappa, scattering, spectral, cumulate = false), otherwise from -S (substituted = true), otherwise from the option given last for it, otherwise from the entry section. The predicted conductivities are always written; the scattering rates, the spectral and the cumulative conductivities are written to <name>_rate, <name>_spec, <name>_cumu iff the model is of the Debye kind and the switch is not set to no; the substituted configuration to <name>_subs.cfg iff variables were fitted, the switch is set to yes and the file is not empty. Each of the files holds its own table with its own title, and no other file is changed. Switches are 1/yes/true/on and 0/no/false/off in any case; another text raises ValueError for a switch that is consulted, and then nothing is written. With -Q only the predictions, not split, and the substituted configuration are written, whatever the configuration file says.", "quantifier": "all configurations, options and file systems", "why_tests_cant": "arbitrary settings and tables", "anchors": ["src/teflow/interface.py:do_kappa", "src/teflow/kappa.py:parse_KappaFit"]}
{"id": "C119", "title": "Which command runs", "statement": "tef runs the command whose name (interp, mixing, ztdev, engout, format, cutoff, refine, band, kappa) the first argument begins with, in any case, with the remaining arguments. No argument begins with two of the names, so their order does not matter. Anything else, also an abbreviation of a name, shows the help; no arguments show the platform. An empty argument list handed over by the caller counts as absent, and the arguments of the process are used.", "quantifier": "all argument lists", "why_tests_cant": "all words", "anchors": ["src/teflow/interface.py:_do_main"]}
{"id": "C120", "title": "vquad: broadcasting quadrature", "statement": "The results of vquad have the common shape of a, b, where, fill_value and args: the smallest shape all of them can be broadcast to, i.e. (counted from the last axis) the one dimension different from 1, or 1. At every position where the mask is true, value and error are those of one quadrature with the limits and arguments that position sees; everywhere else the value is the fill value and the error 0, and the integrand is not evaluated there. If a quadrature fails, the error of the first failing position, the last coordinate running fastest, is raised. Shapes without a common shape raise ValueError.", "quantifier": "all shapes, arrays, masks and integrands (every quadrature routine)", "why_tests_cant": "arbitrary numbers of dimensions and arguments", "anchors": ["src/teflow/mathext.py:vquad"]}
{"id": "C121", "title": "Interpolation methods and vinterp on arrays", "statement": "The method linear, line, cubic, pchip and spline are recognised exactly as written, akima and gpr in any case, and every word beginning with poly (in any case) and ending with a digit means a polynomial; the degree is the last character alone (finding: poly10 has degree 0, poly12 degree 2); every other text raises ValueError. Axes of length 1 of x and y disappear first, and each array has exactly one such form. Then the last axis of y has to be as long as x, which has to have one axis (so a single data point raises ValueError), and the result has the remaining axes of y followed by all axes of xp (finding: leading axes of length 1 of y are lost); its element at i,j is what the method gives for row i of y, rearranged together with x by increasing x, at the point j of xp; x that is in increasing order reaches the method unchanged, with or without reorder. NaN, infinity, different lengths, decreasing x with reorder=False, an unknown method and a y without any row raise ValueError; a y with a single element raises IndexError (finding); an error of the method on the first failing row is passed on.", "quantifier": "all arrays, methods and results of the methods", "why_tests_cant": "arbitrary numbers of dimensions, all method names", "anchors": ["src/teflow/mathext.py:vinterp", "src/teflow/mathext.py:_interp_vect"]}
{"id": "C122", "title": "interpx on arrays", "statement": "x and y, after axes of length 1 have disappeared, have to have one axis, of the same length, at least 2: otherwise ValueError, and only then. The result has the shape of xp, and its element at every index of xp is the value at that point: on the chord of the interval that contains it, on the extension of the first or last chord, or the value given for that side. Finding: a single number xp outside the range raises TypeError unless a value is given for that side; inside the range, or with a value given, it works.", "quantifier": "all arrays of at least two strictly increasing nodes, all arrays of points", "why_tests_cant": "arbitrary shapes", "anchors": ["src/teflow/mathext.py:interpx", "src/teflow/mathext.py:_interpx"]}
{"id": "C123", "title": "Arrays in configuration files", "statement": "The numbers of an array entry are, blanks around them removed, the content of the file whose name follows file:, or the text after array:, or the whole text if it has neither prefix (prefixes in small letters only). The result lists the columns: number k of column j is number j of the k-th row that is neither blank nor a comment. Rows of different lengths or a word that is not a number raise ValueError, a file that does not exist raises FileNotFoundError.", "quantifier": "all entries with at least one row of numbers, all file systems", "why_tests_cant": "arbitrary texts and numbers of rows and columns", "anchors": ["src/teflow/utils.py:CfgParser.parse_array"]}
{"id": "C124", "title": "Generators on arrays of temperatures, ratios and currents: paired by broadcasting, not combined", "statement": "GenLeg and GenPair accept arrays of Tc and Th (a number counts as an array of one element). When they can be broadcast to a common shape s, build() succeeds, every profile that involves both temperatures has shape s (those of one temperature keep its shape), and at every index each profile holds what a leg with the single temperatures standing there gives. simulate(I_r) with an array of currents that can be broadcast with s to s' returns outputs of shape s' whose element at each index comes from the single temperatures and the single current standing there; at the greatest efficiency each index has its own optimal current. So n hot temperatures and n currents are paired one by one - all combinations need an extra axis - and two lists of different lengths above one raise ValueError, as do temperatures or ratios without common shape. For a pair, ratioLength and ratioArea may be arrays too: power factor, figure of merit, current, power, heat and efficiency get the common shape of everything, the other entries can be broadcast to it, and each index shows the result of the single pair. An empty list of temperatures raises IndexError, when the object is made. The single results are those of C25-C44, for measured data and for polynomials.", "quantifier": "all array shapes and contents, all indices, every arithmetic (rounding included), all data", "why_tests_cant": "shapes and pairings are unbounded in rank and size; tests use scalars or one list", "anchors": ["src/teflow/engout.py:GenCore._get_itgs", "src/teflow/engout.py:GenCore._get_mdfs", "src/teflow/engout.py:GenCore._get_wgts", "src/teflow/engout.py:GenCore._get_prfs", "src/teflow/engout.py:GenCore._simulate", "src/teflow/engout.py:GenLeg.__init__", "src/teflow/engout.py:GenPair.__init__", "src/teflow/engout.py:GenPair._get_itgs"]}
{"id": "C125", "title": "Band properties on arrays of Fermi levels and temperatures: each element is the single property", "statement": "N, K_0, K_1, K_2, C, CS, S, PF, CL, L, Ke, U, CCRH, RH, UH and NH of an uncompiled band, and of a MultiBands of at least one band, accept arrays EF and T. When these can be broadcast to a common shape s, every property returns an array of shape s and its element at every index is the property for the single Fermi level and temperature standing there (the quadrature adds an axis in front and sums it away again), provided the spectral functions of the bands broadcast element by element; APSSPB, APSSKB and LinearBand do. Kbip of a MultiBands likewise. EF and T without common shape raise ValueError. For a band without Hall function (LinearBand) CCRH returns None and RH, UH, NH raise TypeError; for a MultiBands with one such sub-band all four raise TypeError. solve_EF on arrays has the common shape of value and T, each element solved by itself; if the solver raises for some element, the error of the first such element in row order is raised; an empty array raises ValueError, and so do arrays without common shape. The single values are the ones C58-C72 speak of.", "quantifier": "all array shapes and contents, all indices, every arithmetic (rounding included), all lists of bands and offsets, all properties", "why_tests_cant": "shapes and pairings are unbounded in rank and size; tests evaluate scalars or one list", "anchors": ["src/teflow/bandlib.py:romb_dfx", "src/teflow/bandlib.py:BaseBand", "src/teflow/bandlib.py:MultiBands", "src/teflow/bandlib.py:MultiBands.Kbip", "src/teflow/bandlib.py:BaseBand.solve_EF", "src/teflow/bandlib.py:APSSPB", "src/teflow/bandlib.py:APSSKB", "src/teflow/bandlib.py:LinearBand"]}
{"id": "C126", "title": "Scattering rates and spectral conductivity on arrays of frequencies and temperatures: each element is the single value", "statement": "Every scattering mechanism, scattering(w, T, with_total) and spectral(w, T, accumulate) of KappaDebye accept arrays w and T. When these can be broadcast to a common shape s, every array returned has shape s and its element at every index is the value for the single frequency and temperature standing there, under the same keys in the same order, provided the mechanisms broadcast element by element; every mechanism of the package does, except that free-electron scattering with parameters missing raises KeyError for all w and T (arrays and numbers alike). w and T without common shape raise ValueError. vs_to_td and vs_to_gm broadcast their two arguments in the same way (ValueError without common shape); KappaSlack with a numeric coefficient, KappaBipolar, KappaPowerLaw and KappaKlemens act element by element and keep the shape. The single values are the ones C81-C93 speak of.", "quantifier": "all array shapes and contents, all indices, every arithmetic (rounding included), all lists of mechanisms, both flags", "why_tests_cant": "shapes and pairings are unbounded in rank and size; tests evaluate a few lists", "anchors": ["src/teflow/kappa.py:KappaDebye.scattering", "src/teflow/kappa.py:KappaDebye.spectral", "src/teflow/kappa.py:KappaDebye.vs_to_td", "src/teflow/kappa.py:KappaDebye.vs_to_gm", "src/teflow/kappa.py:ThreePhonon", "src/teflow/kappa.py:FreeElectrons", "src/teflow/kappa.py:KappaKlemens", "src/teflow/kappa.py:KappaBipolar"]}
{"id": "C127", "title": "Cumulative and total Debye conductivity on arrays: running trapezoids along an axis, sums over bins, one integral per element", "statement": "cumulative(w, T, accumulate, axis), axis counted from the front: when w has one axis, or as many axes as the common shape s of w and T, and its number of points fits the length of s along the axis, the result has the keys and shapes of spectral(w, T, accumulate), holds 0 at the start of the axis, and each further element adds the trapezoid of the two neighbouring spectral values over the frequency step; for a single axis of frequencies at one temperature this is C88's list. w with another number of axes or points, or w and T without common shape, raises ValueError. cumulative_mfp_t(mfp, T, accumulate, nbatch) with a T of one element and bins no narrower than 1e-5: the keys are those of spectral, each array has the shape of mfp (leading axes of length one added as T's rank demands) and holds at each index the sum over the bins of the bin's share for the mean free path there, with the spectral value at the bin's centre and the (accumulated) rates at its two ends; a T of any other size or narrower bins raise ValueError. Calling the model with arrays T and nscat gives the common shape, each element the quadrature for its own temperature and number of mechanisms, ValueError without common shape, and the exception of the first failing element in row order otherwise; without nscat it has T's shape, each element the integral over all mechanisms plus the additional models' values there.", "quantifier": "all array shapes and contents, all axes, all indices, all numbers of bins, all lists of mechanisms and models", "why_tests_cant": "shapes, axes and bins are unbounded; tests evaluate one frequency list", "anchors": ["src/teflow/kappa.py:KappaDebye.cumulative", "src/teflow/kappa.py:KappaDebye.cumulative_mfp_t", "src/teflow/kappa.py:KappaDebye.__call__", "src/teflow/mathext.py:vquad"]}
{"id": "C128", "title": "interp_gpr with the built-in kernels always has exactly one solution", "statement": "With the kernels 'rbf' and 'dfx' (in any case of letters; every other name raises ValueError), a non-zero scale and a linear solver that is exact and succeeds on symmetric positive definite matrices, interp_gpr succeeds for all data with distinct x and regular >= 0 (a number or one per point; another number of them raises ValueError), and also for repeated x if regular > 0: the kernel matrix is positive definite exactly if the x are distinct, singular otherwise. The result is f(t) = sum_i c_i K(t, x_i) with the only coefficients for which f(x_i) = y_i - regular_i c_i at every data point; with gradient=True it is exactly the derivative of f; with regular = 0 the data are reproduced.", "quantifier": "every number of points, all values, scales and regularisations", "why_tests_cant": "positive definiteness for every number and position of points", "anchors": ["src/teflow/mathext.py:interp_gpr", "src/teflow/mathext.py:_interp_gpr", "src/teflow/mathext.py:_kernel_rbf", "src/teflow/mathext.py:_kernel_dfx"]}
{"id": "C129", "title": "Regularisation of vinterp(method=gpr) and mapping shifts all data alike", "statement": "Under the same conditions (distinct points, for mapping distinct pairs; regular a number r >= 0) vinterp(method='gpr') and mapping succeed with a result f(t) = sum_i c_i K(t, x_i), which for vinterp with gradient=True is replaced by its derivative, but f(x_i) = y_i - r sum_j c_j: finding: every data point is missed by the same amount, so that regular does not smooth. The likelihood of mapping is -z.c/2 - ln|A|/2 - N ln(2 pi)/2 with the matrix A that was solved and z.c >= 0. Finding: the documented array of regularisations is added to the columns, so that the matrix handed to a solver for symmetric ones is symmetric only if all its entries are equal; an array of one entry acts like the number, and any other length than the number of points raises ValueError.", "quantifier": "every number of points, all values, scales and regularisations", "why_tests_cant": "positive definiteness for every number and position of points", "anchors": ["src/teflow/mathext.py:mapping", "src/teflow/mathext.py:_interp_gpr", "src/teflow/mathext.py:vinterp"]}
{"id": "C130", "title": "The Fermi quadrature converges to the Fermi integral as ndiv grows", "statement": "For every T>0, Fermi level, power k and every integrand func(E,T) that is continuous for E>=0 and bounded there by a power of E, the values romb_dfx returns for ndiv = 0, 1, 2, ... converge, although both end nodes carry an artificial energy, and the limit is the integral over all energies E>0 of func(E,T) ((E-EF)/(kB*T))^k times minus the derivative of the Fermi-Dirac function. This covers idos, trs and hall of APSSPB and APSSKB (Eg>0) and idos and trs of LinearBand for all parameters; for a constant func and k=0 the limit is the constant times the occupation of the band edge.", "quantifier": "every integrand, power, Fermi level and temperature; limit over all orders", "why_tests_cant": "a limit over infinitely many orders for every integrand", "anchors": ["src/teflow/bandlib.py:romb_dfx", "src/teflow/bandlib.py:APSSPB", "src/teflow/bandlib.py:APSSKB", "src/teflow/bandlib.py:LinearBand"]}
{"id": "C131", "title": "Counting carriers with idos or with dos gives the same number", "statement": "N uses the quadrature of idos exactly if use_idos is set and the class has idos, else the integral of dos times the Fermi-Dirac function, split at max(0,EF). For every dos with integral idos (idos(0)=0, idos'=dos for E>0), both continuous for E>=0 and idos bounded by a power, and every T>0 and EF: the quadrature of idos converges as ndiv grows, its limit is the number of occupied states (the integral over E>0 of dos times the occupation), and the second way returns exactly that number if its integrator is exact. In particular this holds for APSSPB, APSSKB and LinearBand.", "quantifier": "every density of states, Fermi level and temperature", "why_tests_cant": "an identity between improper integrals for every density of states", "anchors": ["src/teflow/bandlib.py:BaseBand._N", "src/teflow/bandlib.py:romb_dfx", "src/teflow/bandlib.py:APSSPB"]}
{"id": "C132", "title": "Dot access on AttrDict: reads items, but assignment makes a second, hidden value", "statement": "For every history of d[k]=v, del d[k], d.k=v and del d.k on an AttrDict: d[k] is determined by the item statements alone. For a name the class does not define, d.k is the value last assigned with a dot and not deleted since, else the item d[k], else KeyError; so dots and brackets agree as long as nothing is assigned with a dot, and disagree afterwards until del d.k, which raises AttributeError for a key that was only stored. A key named like a method is hidden behind it for dots. A property is computed from the current items and can be neither assigned nor deleted; an AttributeError inside it turns into the item of that name or KeyError. Finding: dot access never raises AttributeError, so hasattr of a missing name raises KeyError and is never False, and the default of getattr is never used.", "quantifier": "every name, class, initial dictionary and history of statements", "why_tests_cant": "must hold after every history of statements", "anchors": ["src/teflow/utils.py:AttrDict", "src/teflow/utils.py:AttrDict.__getattr__"]}
{"id": "C133", "title": "Models with fitting variables compute what the same models with plain numbers compute", "statement": "A scattering mechanism or Debye model can be built from numbers and variables in any mixture. Its constructor accepts them when it accepts plain numbers under the same keyword names, and otherwise raises the same exception. After any later history of assignments, syncs and creations, every argument stands for one number: itself, or its variable's true value times its scale. If the variables used are free, the mechanism's rate, and the Debye model's scattering rates, spectral and total conductivity, are those of the object built from these numbers. During one evaluation of a fit, and after a whole fit however often the optimiser evaluated the model, the same holds when constrained variables are used too, provided each of them is listed, after the constrained ones it depends on; the listed free variables then stand for the arguments of the last evaluation. Finding: outside such an evaluation a mechanism that uses a constrained variable keeps computing with the old number after the variable it depends on was assigned, until that constrained variable is synced itself.", "quantifier": "every mechanism class, keyword arguments, history of operations, sequence of optimiser calls, frequency and temperature", "why_tests_cant": "must hold after every history of assignments and fits", "anchors": ["src/teflow/kappa.py:BaseScattering", "src/teflow/kappa.py:KappaDebye", "src/teflow/kappa.py:Parameters", "src/teflow/kappa.py:BaseKappaModel.fit", "src/teflow/kappa.py:BaseKappaModel._cal", "src/teflow/kappa.py:ThreePhonon", "src/teflow/kappa.py:GrainBoundary", "src/teflow/kappa.py:FreeElectrons"]}
{"id": "C134", "title": "Numbers in files: what is printed, what is read back", "statement": "A number is printed in the format %.4f (or %.6f) as an optional minus sign, digits without superfluous zeros in front, the point and exactly that many digits, which are those of the nearest multiple of the last place (of two equally near ones the even one); in the format %.6E as one digit, which is 0 for zero only, the point, six digits and a signed exponent of at least two digits, rounded in the same way; each text is determined by the number. Printed texts contain no blank and no #. A text without underscores is read as a finite number exactly when it is a decimal literal with blanks around it, and then as the number it denotes; underscores between two digits are ignored, any other underscore and any other text that cannot be read is a ValueError. So a printed number is read back as the rounded number, nan and the infinities as themselves, and a data file with a comment header or none as the table of the rounded numbers. The error is at most half a unit of the last place (fixed) or half of 10^-6 of the number (scientific); the order of numbers is kept; printing what was read gives the same text. Findings: with %.4f every number of at most 0.00005 in size is read back as 0, numbers closer than one unit of the last place can become equal, and a negative number rounded to zero is printed as -0.0000, whose sign is lost on reading.", "quantifier": "every number, number of digits, text, and table of numbers", "why_tests_cant": "the number of values and texts is unlimited; halfway cases, carries into a new digit (9.9999999 to 1.000000E+01) and exponents of three digits are easily missed by examples", "anchors": ["src/teflow/interface.py:_to_file", "src/teflow/interface.py:do_ztdev", "src/teflow/interface.py:do_engout", "src/teflow/interface.py:do_cutoff", "src/teflow/interface.py:do_band", "src/teflow/interface.py:do_kappa"]}
{"id": "C135", "title": "A killed command leaves part of its files, running it again repairs them, except for interp and format", "statement": "A command reads and computes everything before it opens its first file for writing (refine: it writes line by line what it has read), then writes its files one after the other. If the process is killed while it writes: every file that is not one of its outputs is unchanged; the outputs are, in the order in which they are written, first complete ones, then at most one whose content is a beginning of what it should be (possibly empty), then ones that are as they were before; each of these states can occur. In particular (finding) an existing output file is emptied when it is opened, so its old content is lost although the new one is not there yet: nothing is written to a temporary file and renamed. Running refine, mixing --extend, cutoff, ztdev, engout, band (both forms) or kappa again with the same options after any number of such kills gives the same files and the same outcome as one undisturbed run, provided no output is one of the inputs. interp and format are different (finding): they read an existing output file for the points at which they sample, so after a kill they fail every time if what is left cannot be read or holds no column, and otherwise sample at the points that are left, whatever the options say; removing the partial outputs first gives the result of the undisturbed run (if the output was not there before). A partial table read back gives an error, or the first rows unchanged, or the first rows and one more row whose last number was cut; such a last row has all its columns unless it is the only row. The reader may accept the cut number (finding): one in fixed-point format (%.4f, %.6f) then keeps its sign and does not become larger in size; one in scientific format (%.6E, band simulation) may become larger, e.g. 1.000000E-05 read as 1.", "quantifier": "all disks, all sets of files a command writes, all moments at which the process is killed and all amounts of text handed to the system until then, any number of killed attempts, all options of the commands, all tables and all places where a file may be cut", "why_tests_cant": "a test kills a process at a few moments; the claim is about every reachable state of the disk, after any number of kills, and about every prefix of every file", "anchors": ["src/teflow/interface.py:_to_file", "src/teflow/interface.py:do_interp", "src/teflow/interface.py:do_mixing", "src/teflow/interface.py:do_ztdev", "src/teflow/interface.py:do_engout", "src/teflow/interface.py:do_format", "src/teflow/interface.py:do_cutoff", "src/teflow/interface.py:do_refine", "src/teflow/interface.py:do_band", "src/teflow/interface.py:do_kappa"]}
{"id": "C136", "title": "EFopt and PFmax are the maximum of the power factor of the acoustic-phonon parabolic band", "statement": "For every positive sigma0 and every positive temperature, the power factor of the parabolic band (conductivity times squared Seebeck coefficient, from the transport integrals over all energies above the band edge) has exactly one maximum as a function of the Fermi level; it grows strictly below it and falls strictly above it. EFopt(T) is within 1.1e-5 kT of that level, the power factor at EFopt(T) is the largest possible one up to one part in 10^9, and PFmax is the largest power factor up to 3.3 parts in a million: it is between 2.4 and 3.3 millionths too low (finding: the number in the code has fewer correct digits than it shows). The power factor PF that the code computes by quadrature tends to that of the theory when the quadrature is refined, and the conductivity to sigma0*ln(1+exp(EF/kT)). The factor between sigma0 and the weighted mobility UWT is the formula written beside it, to one part in 10^12.", "quantifier": "all positive sigma0, all positive temperatures, all Fermi levels", "why_tests_cant": "a test compares a few Fermi levels with numerical integrals; the claim is about the maximum over all of them, for every temperature, of exact improper integrals", "anchors": ["src/teflow/bandlib.py:APSSPB", "src/teflow/bandlib.py:APSSPB.EFopt", "src/teflow/bandlib.py:APSSPB.PFmax", "src/teflow/bandlib.py:APSSPB.UWT", "src/teflow/bandlib.py:romb_dfx"]}
{"id": "C137", "title": "RSPB: the highest point of the power factor, and that it is only a local one", "statement": "For every positive factor and mobility and the default delta=0.075, PFr(Nr) grows strictly up to one reduced concentration, falls strictly up to a second one between 179.8 and 180, and grows from there on without bound (finding: beyond 15000 it is above the 'maximum' PFr_max, so PFr_max is the maximum only for the concentrations up to 14000). The first one is within 1e-4 of the constant 1.255 that valuate uses for Nopt; at 1.255 PFr is at least 0.9999999 of the highest value, PFr_max times factor and mobility is that value to 1e-7, and so is the PFmax of valuate for the factor PF0 (1.1e-7). With delta=0 there is one highest point only, between 1.2028 and 1.2029 (so Nopt of valuate is for the default delta, whatever delta is given), and PFr falls for ever after it.", "quantifier": "all positive factors and mobilities, all reduced concentrations, delta 0.075 and 0", "why_tests_cant": "a test samples a range of concentrations; the claim is about the sign of a slope everywhere and about unbounded growth", "anchors": ["src/teflow/bandlib.py:RSPB", "src/teflow/bandlib.py:RSPB.PFr", "src/teflow/bandlib.py:RSPB.valuate"]}
{"id": "C138", "title": "SPB: the Seebeck coefficient determines the Fermi level", "statement": "The Seebeck coefficient and Lorenz number that the transport integrals give the acoustic-phonon parabolic band exist and are unique for every sigma0 > 0, T > 0 and every Fermi level, and the values returned by S and L (with the sign of the carriers and the constants 86.17... uV/K and 0.7425...e-8 W Ohm/K^2) approach them as the quadrature is refined, the code's own being the sixth of these. The Seebeck coefficient is positive for every Fermi level and strictly falling in it, and every positive value is taken at exactly one Fermi level, so a measured Seebeck coefficient fixes the Fermi level; two states with the same Seebeck coefficient have the same EF/T and the same Lorenz number, whatever their temperatures and sigma0. With x = EF/kT, in units of k/e, S lies between 2-x and 2-x+exp(x) and the Lorenz number, in (k/e)^2, within 4.5 exp(x)+exp(2x) of 2 (the classical limits below the band edge), and for EF > 0 S is at most 9/x.", "quantifier": "all sigma0 > 0, T > 0, all Fermi levels, all positive Seebeck coefficients", "why_tests_cant": "a test samples Fermi levels; the claim is existence, uniqueness and a limit over all of them", "anchors": ["src/teflow/bandlib.py:BaseBand.S", "src/teflow/bandlib.py:BaseBand.L", "src/teflow/bandlib.py:BaseBand.solve_EF", "src/teflow/bandlib.py:APSSPB.trs"]}
{"id": "C139", "title": "A carrier concentration or a conductivity fixes the Fermi level", "statement": "For every T > 0 and every density of states that is positive above the band edge, with integral idos (both continuous, idos bounded by a power), the value that the quadrature of idos approaches as it is refined is the number of occupied states; it is positive, rises strictly with the Fermi level, by at most the factor exp((EF'-EF)/kT), stays below the limit of idos at high energy, and takes every positive value below that limit at exactly one Fermi level. So for APSSPB, APSSKB (Eg>0) and LinearBand each positive carrier concentration belongs to exactly one Fermi level. The same holds for the conductivity K_0 of the three classes, with the ceilings: none for APSSPB, (3/4) sigma0 Eg/kT for APSSKB and sigma0 for LinearBand (finding: for a conductivity at or above its ceiling no Fermi level exists, so solve_EF has nothing to find).", "quantifier": "all temperatures, band parameters, Fermi levels and target values", "why_tests_cant": "a test samples a few targets; existence and uniqueness range over a continuum", "anchors": ["src/teflow/bandlib.py:BaseBand.N", "src/teflow/bandlib.py:BaseBand.C", "src/teflow/bandlib.py:BaseBand.solve_EF", "src/teflow/bandlib.py:APSSKB.trs", "src/teflow/bandlib.py:LinearBand.trs"]}
{"id": "C140", "title": "MultiBands counts electrons and holes together: the Fermi levels of a concentration", "statement": "For every T > 0 and every non-empty list of sub-bands whose density of states is positive above the edge and does not fall with the energy (APSSPB, APSSKB with Eg>0 and LinearBand all qualify), at any offsets, the carriers N(EF, T) of an uncompiled MultiBands approach a total, as the quadratures are refined, that is positive. If all sub-bands are of one kind (all conduction or all valence) the total is strictly monotonic in EF (rising for conduction, falling for valence) and takes every positive value at exactly one Fermi level. If both kinds are present the total is electrons plus holes (finding: not their difference): it has a positive minimum, no concentration below it has any Fermi level, and each one above it belongs to exactly two Fermi levels, so solve_EF's answer depends on its search window.", "quantifier": "all temperatures, lists of qualifying sub-bands, offsets, Fermi levels and target concentrations", "why_tests_cant": "a test samples a few targets and two bands; the counts of solutions range over a continuum of targets and over any number of bands", "anchors": ["src/teflow/bandlib.py:MultiBands._N", "src/teflow/bandlib.py:BaseBand.N", "src/teflow/bandlib.py:BaseBand.solve_EF"]}
{"id": "C141", "title": "The Seebeck coefficient of a single band has the sign of its carriers, and a floor", "statement": "For every T > 0, every Fermi level and every transport distribution trs that is continuous, bounded by a power of E, positive and non-decreasing above the band edge (APSSPB, APSSKB with Eg>0 and LinearBand qualify), transport theory gives exactly one Seebeck coefficient S, in k/e; the values returned by method S approach sign*86.17...*S as the quadrature is refined (the code's own is the sixth of these), and S >= (1+exp(-x)) ln(1+exp(x)) - x > 0 with x = EF/kT. So a conduction band (sign -1) is never p-type in this limit, also when EF lies deep inside the band where the integrand changes sign. For LinearBand S equals that closed form at every Fermi level and sigma0, falls strictly with EF, and takes each positive value at exactly one Fermi level.", "quantifier": "all temperatures, Fermi levels, qualifying transport distributions and band parameters", "why_tests_cant": "the bound is over a continuum of Fermi levels and over all distributions; the sum behind K_1 has terms of both signs", "anchors": ["src/teflow/bandlib.py:BaseBand.S", "src/teflow/bandlib.py:BaseBand._K_n", "src/teflow/bandlib.py:LinearBand.trs", "src/teflow/bandlib.py:APSSKB.trs", "src/teflow/bandlib.py:APSSPB.trs"]}
{"id": "C142", "title": "The order of the band models by Seebeck coefficient", "statement": "If two transport distributions (continuous for E>=0, bounded by a power, positive for E>0) have a ratio tau/sigma that does not fall with the energy, then at every Fermi level and every T>0 the Seebeck coefficient of transport theory (which method S approaches as the quadrature is refined) of tau is at least that of sigma. Hence at equal EF and T, for all positive sigma0 of each, 0 < S(LinearBand) <= S(APSSKB with gap Eg) <= S(APSSKB with gap Eg' >= Eg) <= S(APSSPB), in magnitude: non-parabolicity can only lower the Seebeck coefficient.", "quantifier": "all pairs of such distributions, Fermi levels, temperatures, gaps and prefactors", "why_tests_cant": "the inequality ranges over a continuum of Fermi levels and temperatures and over all pairs of distributions", "anchors": ["src/teflow/bandlib.py:BaseBand.S", "src/teflow/bandlib.py:APSSPB.trs", "src/teflow/bandlib.py:APSSKB.trs", "src/teflow/bandlib.py:LinearBand.trs"]}
{"id": "C143", "title": "Several bands: the Seebeck coefficient is a mean, the heat is more than a sum", "statement": "For every uncompiled non-empty MultiBands of uncompiled bands whose transport functions are positive above their edges (any mix of conduction and valence bands and any offsets), at every EF and T > 0, exactly (no limit of the quadrature): C*S equals the sum of C_i*S_i over the bands, each at the Fermi level measured from its own edge, so S is the conductivity-weighted mean of the signed S_i and lies between the smallest and the largest of them; CL of the MultiBands is at least the sum of the CL_i, and its Lorenz number L at least the smallest L_i.", "quantifier": "every set of bands, offsets, Fermi level and temperature", "why_tests_cant": "the bounds hold for any number of bands and any transport functions", "anchors": ["src/teflow/bandlib.py:MultiBands._K_n", "src/teflow/bandlib.py:BaseBand.S", "src/teflow/bandlib.py:BaseBand.CL", "src/teflow/bandlib.py:BaseBand.L"]}
